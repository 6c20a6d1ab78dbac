(** * C92: texts with imaginary numbers *)
From Coq Require Import List NArith ZArith QArith Qabs Bool Arith Lia Lqa String.
From Coq Require Import Floats.SpecFloat.
From Verif Require Import ModelBase ModelContext ModelEvaluator ModelText ModelDefault ModelFloat ModelNum ModelOps ModelSplit ModelTokenizer ModelParse ModelStd ModelComplex
  SpecExpr SpecText SpecOps SpecLex SpecParse SpecTokenizer SpecDecimal SpecDouble SpecRound SpecComplex SpecSource SpecComplexText
  ProofText ProofDefault ProofBuild ProofWf ProofRpn ProofDouble ProofDouble2 ProofRound ProofRound3 ProofSource ProofComplex ProofComplexText
  PropLex PropComplex PropRound PropSource.
Import ListNotations.
Local Open Scope Z_scope.

(** In a context for complex numbers, the text of an expression, where numbers may be imaginary, is read as that expression:
    tokenizing gives its tokens, and evaluating gives its value. [i] must be a word that can end an operand; it is in the contexts
    the crate makes. *)
Theorem C92_text : forall V W (c : ctx V W) parse, complex_number (cfg c) = true -> ends_operand c parse (lit "i") ->
  forall dbg e s (w : W), wf c e -> complex_text_of c parse e s ->
  tokenize c parse dsplitter s = Ok (print e) /\ eval c parse dsplitter dbg s w = denote c e w.
Proof.
  intros V W c parse Hc Hi dbg e s w Hw Ht. pose proof (complex_tokenize c parse Hc Hi e s Hw Ht) as T. split; [exact T|].
  unfold eval, bind, lift, dsplitter. rewrite T. apply eval_tokens_print. exact Hw.
Qed.
Print Assumptions C92_text.

(** A number and [i] that the number type does not read together are an error, even where [i] is the name of a constant. *)
Theorem C92_unreadable : forall V W (c : ctx V W) parse, complex_number (cfg c) = true ->
  forall dbg s n ws (w : W), lexes s (n :: lit "i" :: ws) -> parse n <> None -> parse (n ++ lit "i") = None ->
  eval c parse dsplitter dbg s w = (Err InvalidInput, w).
Proof.
  intros V W c parse Hc dbg s n ws w Hl Hn Hi. unfold eval, bind, lift, tokenize.
  assert (T : trim s <> []) by (eapply ProofExprText.lexes_trim; [exact Hl|discriminate]). destruct (trim s); [congruence|].
  unfold dsplitter. rewrite (ProofTok2.lexes_default s _ Hl). cbn [tokenize_loop]. destruct (parse n); [|congruence]. rewrite Hc, str_eqb_refl, Hi. reflexivity.
Qed.
Print Assumptions C92_unreadable.

(** ... otherwise they are one number. *)
Theorem C92_one_number : forall V W (c : ctx V W) parse, complex_number (cfg c) = true ->
  forall dbg s n v (w : W), lexes s [n; lit "i"] -> parse n <> None -> parse (n ++ lit "i") = Some v ->
  eval c parse dsplitter dbg s w = (Ok v, w).
Proof.
  intros V W c parse Hc dbg s n v w Hl Hn Hi. unfold eval, bind, lift, tokenize.
  assert (T : trim s <> []) by (eapply ProofExprText.lexes_trim; [exact Hl|discriminate]). destruct (trim s); [congruence|].
  unfold dsplitter. rewrite (ProofTok2.lexes_default s _ Hl). cbn [tokenize_loop]. destruct (parse n); [|congruence]. rewrite Hc, str_eqb_refl, Hi. cbn [tokenize_loop rbind].
  exact (eval_tokens_print c dbg (ENum v) w I).
Qed.
Print Assumptions C92_one_number.

(** Complex arithmetic from the text to the number: real numbers, imaginary numbers ([2i], [0.5 i], [i]), brackets, signs and [+ - * /]
    give the exact value [a + b i], if no step needs rounding. *)
Theorem C92_arithmetic : forall W L (rnd : W -> f64 * W) E dbg cf d, complex_context L rnd E dbg cf = Ok d ->
  forall parse read, reads_complex parse read ->
  forall e a b s ws w, complex_exact e a b -> wf (to_ctx E d) (with_numbers read e) -> complex_words (print e) ws -> lexes s ws ->
  exists z, eval (to_ctx E d) parse dsplitter dbg s w = (Ok z, w) /\ is_complex z a b.
Proof.
  intros W L rnd E dbg cf d Hd parse read R e a b s ws w He Hwf Hw Hl. assert (Ed := cx_d L rnd E dbg cf d Hd). subst d.
  destruct (C92_text _ _ (to_ctx E (cx_ctx L rnd cf)) parse eq_refl (cx_i L rnd E cf parse read R) dbg _ s w Hwf (cx_text L rnd E cf parse read R e a b s ws He Hw Hl)) as [_ ->].
  rewrite <- (eval_tokens_print _ dbg _ w Hwf). apply (C57_expressions W L rnd E dbg cf _ Hd); [exact Hwf|]. exact (cx_values parse read R e a b He).
Qed.
Print Assumptions C92_arithmetic.

(** ** A case *)

(** Reading a complex number, as num-complex does for these texts: the real or imaginary part is read with the reader for doubles. *)
Definition read_complex (s : str) : option (f64 * f64) :=
  match rev s with
  | 105%N :: t => if str_eqb (rev t) [] then Some (f_zero, f_one) else option_map (fun x => (f_zero, x)) (parse_double (rev t))
  | _ => option_map (fun x => (x, f_zero)) (parse_double s)
  end.
Definition reading (s : str) : f64 * f64 := match read_complex s with Some z => z | None => (f_zero, f_zero) end.
Lemma read_imaginary : forall s, s <> [] -> read_complex (imaginary s) = option_map (fun x => (f_zero, x)) (parse_double s).
Proof.
  intros s Hs. unfold read_complex, imaginary. rewrite rev_app_distr. change (rev (lit "i") ++ rev s) with (105%N :: rev s). cbv iota beta. rewrite rev_involutive.
  destruct s as [|x t]; [congruence|]. reflexivity.
Qed.
Lemma read_real : forall s q, decimal_numeral s q -> read_complex s = option_map (fun x => (x, f_zero)) (parse_double s).
Proof.
  intros s q N. unfold read_complex. destruct (rev s) as [|ch t] eqn:Er; [reflexivity|]. destruct (N.eq_dec ch 105) as [->|Hne].
  - exfalso. assert (In 105%N s) as G by (apply (proj2 (in_rev s 105%N)); change (In (A := char) 105%N (rev s)); rewrite Er; left; reflexivity). clear Er. destruct N as [s v Hd Hn|s v u k Hd Hn Ht Hn'].
    + pose proof (ProofParse.digits_char 10 _ _ 105%N ltac:(lia) Hd G). lia.
    + apply in_app_or in G. destruct G as [G|[G|G]]; [pose proof (ProofParse.digits_char 10 _ _ 105%N ltac:(lia) Hd G); lia|discriminate|pose proof (ProofParse.digits_char 10 _ _ 105%N ltac:(lia) Ht G); lia].
  - destruct ch as [|p]; [reflexivity|]. repeat (destruct p as [p|p|]; try reflexivity). congruence.
Qed.
Theorem C92_reader : reads_complex read_complex reading.
Proof.
  assert (NE : forall s q, decimal_numeral s q -> s <> []). { intros s q [s' v Hd Hn|s' v t u Hd Hn Ht Hn']; [exact Hn|]. destruct s'; [congruence|discriminate]. }
  assert (D : forall s q, decimal_numeral s q -> a_double q -> parse_double s = Some (read_double s) /\ stands_for (read_double s) q).
  { intros s q H Hq. destruct (proj1 C78_double_reader s q H I) as [A B]. split; [exact A|]. exact (read_exactly q _ B Hq). }
  split; [|split; [|split]].
  - intros s q H Hq. destruct (D s q H Hq) as [A B]. unfold reading. rewrite (read_real s q H), A. split; [reflexivity|]. split; [exact B|exact zero_stands].
  - intros s q H Hq. destruct (D s q H Hq) as [A B]. unfold reading. rewrite (read_imaginary s (NE s q H)), A. split; [reflexivity|]. split; [exact zero_stands|exact B].
  - split; [reflexivity|]. split; [exact zero_stands|exact one_stands].
  - intros s H. repeat (destruct H as [<-|H]; [reflexivity|]). destruct H.
Qed.
Print Assumptions C92_reader.

(** [(1 + 2i)(3 - 0.5 i) / i - -4i], with and without spaces: [(4 + 5.5i) / i + 4i = 5.5]. *)
Definition C92_tree : expr str :=
  EBin (lit "-") (EBin (lit "/") (EMul (EGroup Parenthesis (EBin (lit "+") (ENum (lit "1")) (ENum (imaginary (lit "2")))))
      (EGroup Parenthesis (EBin (lit "-") (ENum (lit "3")) (ENum (imaginary (lit "0.5")))))) (ENum (lit "i"))) (EPre (lit "-") (ENum (imaginary (lit "4")))).
Definition C92_words : list str := map lit ["("; "1"; "+"; "2"; "i"; ")"; "("; "3"; "-"; "0.5"; "i"; ")"; "/"; "i"; "-"; "-"; "4"; "i"]%string.
Definition cx_d0 : dctx c64 unit := cx_ctx no_clib no_random implicit_config.
Ltac cnum v := apply (dn_of _ v); [reflexivity|discriminate].
Example C92_case :
  complex_context no_clib no_random std_env true implicit_config = Ok cx_d0 /\
  (exists a b, complex_exact C92_tree a b /\ (a == 11 # 2)%Q /\ (b == 0)%Q) /\ wf (to_ctx std_env cx_d0) (with_numbers reading C92_tree) /\
  complex_words (print C92_tree) C92_words /\ lexes (lit "(1 + 2i)(3 - 0.5 i) / i - -4i") C92_words /\
  fst (eval (to_ctx std_env cx_d0) read_complex dsplitter true (lit "(1 + 2i)(3 - 0.5 i) / i - -4i") tt) = Ok (f_of 11 (-1), f_zero) /\
  fst (eval (to_ctx std_env cx_d0) read_complex dsplitter true (lit "i i") tt) = Err InvalidInput.
Proof.
  split; [apply complex_is|]. split; [|split; [|split; [|split; [|split]]]].
  - eexists. eexists. split; [|split].
    + apply CX_sub; [apply CX_div; [apply CX_implied; [apply CX_group, CX_add; [apply CX_real; [cnum 1|dbl 1 0]|apply CX_imaginary; [cnum 2|dbl 1 1]|dbl 1 0|dbl 1 1]
          |apply CX_group, CX_sub; [apply CX_real; [cnum 3|dbl 3 0]|apply CX_imaginary; [apply (dn_point (lit "0") 0 (lit "5") 5); [reflexivity|discriminate|reflexivity|discriminate]|dbl 1 (-1)]|dbl 3 0|dbl (-1) (-1)]|]
        |apply CX_unit| |]|apply CX_minus, CX_imaginary; [cnum 4|dbl 1 2]| |].
      * split; [dbl 3 0|split; [dbl (-1) 0|split; [dbl (-1) (-1)|split; [dbl 6 0|split; [dbl 4 0|dbl 11 (-1)]]]]].
      * intros [_ X]. discriminate X.
      * repeat split.
        -- dbl 0 0.
        -- dbl 11 (-1).
        -- dbl 4 0.
        -- dbl 0 0.
        -- dbl 11 (-1).
        -- dbl (-4) 0.
        -- dbl 0 0.
        -- dbl 1 0.
        -- dbl 1 0.
        -- dbl 11 (-1).
        -- dbl (-4) 0.
      * dbl 11 (-1).
      * dbl 0 0.
    + vm_compute. reflexivity.
    + vm_compute. reflexivity.
  - apply wfb_sound. vm_compute. reflexivity.
  - unfold C92_words, C92_tree. cbn [print app map].
    repeat first [apply cw_none | (apply (cw_symbol _ _ _ _); [intros; discriminate|reflexivity|]) | (eapply cw_real; [cnum 1|intros ?; discriminate|]) | (eapply cw_real; [cnum 3|intros ?; discriminate|])
      | (eapply (cw_imaginary (lit "2")); [cnum 2|]) | (eapply (cw_imaginary (lit "4")); [cnum 4|])
      | (eapply (cw_imaginary (lit "0.5")); [apply (dn_point (lit "0") 0 (lit "5") 5); [reflexivity|discriminate|reflexivity|discriminate]|]) | (apply cw_unit; [intros ?; discriminate|])].
  - apply C11_maximal_munch. vm_compute. reflexivity.
  - vm_compute. reflexivity.
  - vm_compute. reflexivity.
Qed.
