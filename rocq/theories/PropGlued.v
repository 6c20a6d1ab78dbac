(** * Words that mean nothing, and operators written together (C102)

    Vocabulary: SpecGlued; SpecTokenizer ([nameless]: a word that is no number and no name of the context), SpecLex2 (the words of the four splitters). *)
From Coq Require Import List NArith ZArith Bool Arith Lia String.
From Verif Require Import ModelBase ModelContext ModelEvaluator ModelText ModelSplit ModelTokenizer ModelDefault ModelFloat ModelNum ModelOps ModelParse ModelBinary ModelDecimal ModelComplex ModelStd
  SpecTokens SpecText SpecExpr SpecLex SpecLex2 SpecTokenizer SpecParse SpecBlame SpecGlued ProofText ProofDefault ProofTokens ProofTokens2 ProofLex ProofTok2 ProofParse ProofBuild ProofCtx ProofDecimal ProofBinary ProofComplex ProofBlame PropLex.
Import ListNotations.
Local Open Scope string_scope.
Local Open Scope list_scope.
Local Open Scope N_scope.

Lemma unknown_token : forall V W (c : ctx V W) parse x, nameless c parse x -> x <> lit "," -> x <> lit " " -> (forall g, x <> [grouping_open g] /\ x <> [grouping_close g]) -> ~ (complex_number (cfg c) = true /\ x = lit "i") ->
  forall ws prev ts, stand_for c parse prev ws ts -> In x ws -> In (TUnknown x) ts.
Proof.
  intros V W c parse x N X1 X2 X3 X4 ws prev ts H. induction H as [prev|prev ws ts _ H IH|prev s ws t ts S _ _ H IH|prev s ws v ts C P Q H IH]; intros I; [destruct I|..].
  - destruct I as [I|I]; [congruence|]. exact (IH I).
  - destruct I as [-> |I]; [|right; exact (IH I)]. left. destruct N as [[N1 [N2 [N3 N4]]] [N5 N6]].
    inversion S as [v Hv|H1 H2|H1 H2 H3|H1 H2 H3 H4|H1 H2|H1 H2 H3 H4 H5|H1 H2|g H1 H2|g H1 H2|H1 H2 H3 H4]; subst; try congruence; try contradiction.
    + exfalso. destruct H2 as [[(f & G & _) _]|[(f & G & _) _]]; apply N5; unfold unary; congruence.
    + exfalso. destruct H2; contradiction.
    + exfalso. exact (proj1 (X3 g) eq_refl).
    + exfalso. exact (proj2 (X3 g) eq_refl).
  - destruct I as [-> |[I|I]]; [exfalso; destruct N as [[N _] _]; congruence|exfalso; apply X4; auto|]. right. exact (IH I).
Qed.

(** A text, with any splitter, that has a word which is no number, no name, no comma and no grouping symbol: no value, and nothing is called. *)
Theorem C102_unknown_word : forall V W (c : ctx V W) parse splitter dbg s x w r w', ~ blank s -> In x (splitter s) ->
  nameless c parse x -> x <> lit "," -> x <> lit " " -> (forall g, x <> [grouping_open g] /\ x <> [grouping_close g]) -> ~ (complex_number (cfg c) = true /\ x = lit "i") ->
  eval c parse splitter dbg s w = (r, w') -> w' = w /\ (r = Err InvalidInput \/ r = Err InvalidExpression \/ r = Panic /\ tokenize c parse splitter s = Panic).
Proof.
  intros V W c parse splitter dbg s x w r w' B I N X1 X2 X3 X4 H. unfold eval, bind, lift in H. destruct (tokenize c parse splitter s) as [toks|k|] eqn:T.
  - apply C13_words_to_tokens in T. destruct T as [_ T]. pose proof (unknown_token V W c parse x N X1 X2 X3 X4 _ _ _ T I) as U. unfold eval_tokens, bind, lift in H.
    destruct (infix_to_rpn c dbg toks) as [rpn|k|] eqn:R.
    + exfalso. destruct (infix_conserved c dbg toks rpn R) as (_ & _ & F). rewrite Forall_forall in F. exact (F _ U).
    + injection H as <- <-. split; [reflexivity|]. destruct (owns_infix c dbg toks k R) as [-> | ->]; auto.
    + exfalso. exact (infix_no_panic c dbg toks R).
  - injection H as <- <-. split; [reflexivity|]. destruct (C13_errors _ _ _ _ _ _ _ T) as [[Bl _]|[[-> _]|[-> _]]]; auto. contradiction.
  - injection H as <- <-. auto.
Qed.
Print Assumptions C102_unknown_word.

(** ** Operator characters written together are one word *)
Lemma cut_at : forall (n s a r : str) x, n ++ s = a ++ x :: r -> (exists b, a = n ++ b /\ s = b ++ x :: r) \/ (exists q, n = a ++ x :: q /\ r = q ++ s).
Proof.
  induction n as [|y n IH]; intros s a r x H; [left; exists a; auto|]. destruct a as [|z a]; cbn [app] in H; injection H as -> H.
  - right. exists n. auto.
  - destruct (IH s a r x H) as [(b & -> & X)|(q & -> & X)]; [left; exists b; auto|right; exists q; auto].
Qed.
Lemma sign_not : forall x, sign_char x -> is_whitespace x = false /\ ~ digit x /\ ~ letter x /\ x <> point /\ operator_char x.
Proof.
  intros x (O & P & U). split; [|split; [|split; [|split; assumption]]].
  - cbn in O. repeat (destruct O as [<- |O]; [reflexivity|]). destruct O.
  - unfold digit. cbn in O. repeat (destruct O as [<- |O]; [unfold point in P; lia|]). destruct O.
  - unfold letter. cbn in O. repeat (destruct O as [<- |O]; [unfold point in P; lia|]). destruct O.
Qed.
Lemma number_chars : forall n, number_word n -> Forall (fun x => digit x \/ x = point) n.
Proof.
  intros n [[_ F]|(a & b & -> & [_ F] & F')]; [eapply Forall_impl; [|exact F]; auto|]. apply Forall_app. split; [eapply Forall_impl; [|exact F]; auto|]. constructor; [auto|]. eapply Forall_impl; [|exact F']; auto.
Qed.
Lemma together : forall bin dollar x y, sign_char x -> (dollar = true -> x <> 36) -> operator_of dollar y -> forall s ws, reads_as bin dollar s ws -> next_to x y s -> exists w, In w ws /\ next_to x y w.
Proof.
  intros bin dollar x y Sx Dx Oy. destruct (sign_not x Sx) as (Nw & Nd & Nl & Np & Ox).
  assert (Cut : forall (n s : str) (P : char -> Prop), Forall P n -> ~ P x -> next_to x y (n ++ s) -> next_to x y s).
  { intros n s P F N (p & q & E). destruct (cut_at _ _ _ _ _ E) as [(b & _ & X)|(q' & X & _)]; [exists b, q; exact X|]. exfalso. apply N. rewrite X in F. apply Forall_app in F. destruct F as [_ F]. inversion F; assumption. }
  assert (Up : forall (ws : list str) n, (exists w, In w ws /\ next_to x y w) -> exists w, In w (n :: ws) /\ next_to x y w) by (intros ws n (w & I & X); exists w; split; [right; exact I|exact X]).
  intros s ws H. induction H as [|c s ws C H IH|n s ws B T St H IH|n s ws D T St H IH|n s ws T St H IH|n s ws T P H IH|n s ws T B St H IH|n s ws Ne F Nl' St H IH|c s ws C1 C2 C3 C4 H IH]; intros X.
  - destruct X as (p & q & E). destruct p; discriminate.
  - apply IH. apply (Cut [c] s (fun z => is_whitespace z = true)); [repeat constructor; exact C|congruence|exact X].
  - apply Up, IH. destruct T as (d & t & -> & Hd & F). apply (Cut (98 :: d :: t) s (fun z => digit z \/ letter z)); [|tauto|exact X].
    constructor; [right; unfold letter; lia|]. constructor; [left; unfold digit; lia|]. eapply Forall_impl; [|exact F]; auto.
  - apply Up, IH. destruct T as (t & -> & F). apply (Cut (36 :: t) s (fun z => z = 36 \/ letter z \/ digit z)); [|intros [Z|Z]; [exact (Dx D Z)|tauto]|exact X].
    constructor; [auto|]. eapply Forall_impl; [|exact F]; auto.
  - apply Up, IH. exact (Cut n s _ (number_chars n T) ltac:(tauto) X).
  - apply Up, IH. apply (Cut (n ++ [point]) s (fun z => digit z \/ z = point)); [apply Forall_app; split; [exact (number_chars n T)|constructor; [auto|constructor]]|tauto|]. rewrite <- app_assoc. exact X.
  - apply Up, IH. destruct T as (c & t & -> & L & F). apply (Cut (c :: t) s (fun z => letter z \/ digit z)); [constructor; [auto|exact F]|tauto|exact X].
  - destruct X as (p & q & E). destruct (cut_at _ _ _ _ _ E) as [(b & _ & X)|(q' & X & Y)]; [apply Up, IH; exists b, q; exact X|]. destruct q' as [|z q'].
    + exfalso. cbn [app] in Y. subst s. exact (St Oy).
    + cbn [app] in Y. injection Y as <- ->. exists n. split; [left; reflexivity|]. exists p, q'. exact X.
  - apply Up, IH. apply (Cut [c] s (fun z => ~ operator_char z)); [repeat constructor; exact C4|tauto|exact X].
Qed.

(** A text, cut by any of the four shipped splitters, in which two operator characters stand next to each other that no name of the context has
    next to each other: no value, and nothing is called. *)
Theorem C102_together : forall V W (c : ctx V W) parse dbg bin dollar rules x y s w r w',
  In (bin, dollar, rules) [(false, false, default_splitter); (true, false, binary_number_splitter); (false, true, repl_splitter false); (true, true, repl_splitter true)] ->
  sign_char x -> operator_char y -> (dollar = true -> x <> 36 /\ y <> 36) -> names_without c parse x y -> next_to x y s ->
  eval c parse (split_into_tokens rules) dbg s w = (r, w') ->
  w' = w /\ (r = Err InvalidInput \/ r = Err InvalidExpression \/ r = Panic /\ ~ ascii s).
Proof.
  intros V W c parse dbg bin dollar rules x y s w r w' R Sx Oy D N X H.
  pose proof (proj1 (C11_all_splitters bin dollar rules R s _) eq_refl) as L.
  destruct (together bin dollar x y Sx (fun e => proj1 (D e)) (conj Oy (fun e => proj2 (D e))) s _ L X) as (u & Iu & Xu).
  assert (Two : (2 <= List.length u)%nat) by (destruct Xu as (p & q & ->); rewrite app_length; cbn [List.length]; lia).
  assert (B : ~ blank s). { intros B. destruct X as (p & q & ->). apply Forall_app in B. destruct B as [_ B]. inversion B as [|? ? B1 _]; subst. destruct (sign_not x Sx). congruence. }
  destruct (C102_unknown_word V W c parse (split_into_tokens rules) dbg s u w r w' B Iu (N u Xu)) as [-> [K|[K|[K T]]]]; auto.
  - intros ->. cbn in Two. lia.
  - intros ->. cbn in Two. lia.
  - intros g. split; intros ->; cbn in Two; lia.
  - intros [_ ->]. cbn in Two. lia.
  - split; [reflexivity|]. right. right. split; [exact K|]. intros A. refine (C12_ascii_no_panic V W c parse rules _ s A T).
    repeat (destruct R as [R|R]; [injection R as <- <- <-; repeat constructor|]). destruct R.
Qed.
Print Assumptions C102_together.

(** ** The shipped contexts *)
Fixpoint pairs (s : str) : list (char * char) := match s with x :: ((y :: _) as t) => (x, y) :: pairs t | _ => [] end.
Lemma pairs_spec : forall x y s, next_to x y s <-> In (x, y) (pairs s).
Proof.
  intros x y. induction s as [|a s IH]; [split; [intros (p & q & E); destruct p; discriminate|intros []]|]. destruct s as [|b s].
  - split; [intros (p & q & E)|intros []]. destruct p as [|? [|? ?]]; discriminate.
  - cbn [pairs]. split.
    + intros (p & q & E). destruct p as [|z p]; cbn [app] in E; [injection E as -> -> _; left; reflexivity|]. injection E as -> E. right. apply IH. exists p, q. exact E.
    + intros [E|I]; [injection E as -> ->; exists [], s; reflexivity|]. apply IH in I. destruct I as (p & q & ->). exists (a :: p), q. reflexivity.
Qed.
Definition op_charb (c : char) : bool := existsb (N.eqb c) (lit "~`!@#$%^&*-+_:;""'|\?.<>/=,").
Lemma op_charb_spec : forall c, operator_char c <-> op_charb c = true.
Proof. intros c. unfold operator_char, op_charb. rewrite existsb_exists. split; [intros I; exists c; rewrite N.eqb_refl; auto|]. intros (z & I & Z). apply N.eqb_eq in Z. subst. exact I. Qed.
Definition clean (but : list (char * char)) (k : str) : bool :=
  forallb is_ascii k && forallb (fun p => negb (op_charb (fst p) && op_charb (snd p)) || existsb (fun e => (fst e =? fst p) && (snd e =? snd p)) but) (pairs k).
Lemma lower_same : forall E x k, operator_char x -> is_ascii k = true -> to_lowercase E x = to_lowercase E k -> k = x.
Proof.
  intros E x k O A H. unfold to_lowercase in H. rewrite A in H. assert (B : is_ascii x = true /\ to_ascii_lowercase x = x) by (cbn in O; repeat (destruct O as [<- |O]; [split; reflexivity|]); destruct O).
  destruct B as [B1 B2]. rewrite B1, B2 in H. injection H as H. unfold to_ascii_lowercase, is_upper, between in H. destruct ((65 <=? k) && (k <=? 90)) eqn:U; [|congruence].
  exfalso. rewrite op_charb_spec in O. subst x. assert (K : 65 <= k <= 90) by lia. clear - O K. unfold op_charb in O. apply existsb_exists in O. destruct O as (z & I & Z). apply N.eqb_eq in Z. subst z. cbn in I. lia.
Qed.
Lemma clean_alike : forall E but q k x y, clean but k = true -> eq_ignore_case E q k = true -> operator_char x -> operator_char y -> ~ In (x, y) but -> ~ next_to x y q.
Proof.
  intros E but q k x y C H Ox Oy Nb (p & t & ->). apply eq_ic in H. unfold clean in C. apply andb_prop in C. destruct C as [A C]. rewrite map_app in H. cbn [map] in H.
  destruct (map_eq_app _ _ _ _ (eq_sym H)) as (k1 & k2 & -> & _ & H2). destruct k2 as [|a [|b k2]]; try discriminate. cbn [map] in H2. injection H2 as Ha Hb _.
  rewrite forallb_forall in A. pose proof (A a (in_or_app k1 (a :: b :: k2) a (or_intror (or_introl eq_refl)))) as Aa. pose proof (A b (in_or_app k1 (a :: b :: k2) b (or_intror (or_intror (or_introl eq_refl))))) as Ab.
  pose proof (lower_same E x a Ox Aa (eq_sym Ha)) as ->. pose proof (lower_same E y b Oy Ab (eq_sym Hb)) as ->.
  rewrite forallb_forall in C. specialize (C (x, y)). cbn [fst snd] in C. rewrite op_charb_spec in Ox, Oy. rewrite Ox, Oy in C. cbn in C. rewrite existsb_exists in C.
  destruct C as ((e1 & e2) & I & Z); [apply pairs_spec; exists k1, k2; reflexivity|]. cbn [fst snd] in Z. apply andb_prop in Z. destruct Z as [Z1 Z2]. apply N.eqb_eq in Z1, Z2. subst. exact (Nb I).
Qed.
Lemma ident_apart : forall x y s, sign_char x -> ident_word s -> ~ next_to x y s.
Proof.
  intros x y s Sx (c & t & -> & L & F) (p & q & E). destruct (sign_not x Sx) as (_ & Nd & Nl & _). destruct p as [|z p]; cbn [app] in E; injection E as -> E; [contradiction|]. subst t. apply Forall_app in F. destruct F as [_ F]. inversion F as [|? ? X _]; subst. tauto.
Qed.
Lemma names_apart : forall V W (c d : ctx V W) parse E but names, with_variables c d -> plain_numbers parse -> forallb (clean but) names = true ->
  (forall q, get_binary d q <> None \/ get_unary d q <> None \/ get_function d q <> None \/ get_constant d q <> None -> exists k, In k names /\ eq_ignore_case E q k = true) ->
  forall x y, sign_char x -> operator_char y -> ~ In (x, y) but -> names_without c parse x y.
Proof.
  intros V W c d parse E but names (Hb & Hu & Hf & Hc & Hv) P C F x y Sx Oy Nb s X. destruct Sx as (Ox & Sx'). rewrite forallb_forall in C.
  assert (G : get_binary d s <> None \/ get_unary d s <> None \/ get_function d s <> None \/ get_constant d s <> None -> False).
  { intros Y. destruct (F s Y) as (k & I & K). exact (clean_alike E but s k x y (C k I) K Ox Oy Nb X). }
  unfold nameless, operator_only, variable, constant, function, unary, binary. rewrite Hb, Hu, Hf, Hc. split; [split; [exact (P x y s (conj Ox Sx') Oy X)|]|split; tauto].
  split; [|split; tauto]. intros Y. exact (ident_apart x y s (conj Ox Sx') (Hv s Y) X).
Qed.
Definition table_names {V W} (d : dctx V W) : list str := map fst (d_binary d) ++ map fst (d_unary d) ++ map fst (d_funs d) ++ map fst (d_consts d).
Lemma table_found : forall V W E (d : dctx V W) q, get_binary (to_ctx E d) q <> None \/ get_unary (to_ctx E d) q <> None \/ get_function (to_ctx E d) q <> None \/ get_constant (to_ctx E d) q <> None ->
  exists k, In k (table_names d) /\ eq_ignore_case E q k = true.
Proof.
  intros V W E d q H. unfold to_ctx, table_names in *. cbn [get_binary get_unary get_function get_constant] in H.
  assert (G : forall A (m : list (str * A)), mget (key_match E) m q <> None -> exists k, In k (map fst m) /\ eq_ignore_case E q k = true).
  { intros A m N. destruct (mget (key_match E) m q) as [v|] eqn:M; [|congruence]. apply mget_some in M. destruct M as (k & I & K). exists k. split; [exact (in_map fst _ _ I)|exact (key_match_eq E q k K)]. }
  destruct H as [H|[H|[H|H]]]; apply G in H; destruct H as (k & I & K); exists k; (split; [|exact K]); rewrite !in_app_iff; auto.
Qed.
Lemma table_apart : forall V W E (d : dctx V W) c parse, forallb (clean []) (table_names d) = true -> with_variables c (to_ctx E d) -> plain_numbers parse -> apart c parse.
Proof.
  intros V W E d c parse C Hw P x y Sx Oy. exact (names_apart V W c (to_ctx E d) parse E [] (table_names d) Hw P C (table_found V W E d) x y Sx Oy (fun i => match i with end)).
Qed.
Lemma names_of_ctx : forall V W p e (bins : list (bfunc V W)) uns funs cf, table_names (ctx_of p e bins uns funs cf) = map bf_name bins ++ map uf_name uns ++ map fn_name funs ++ [lit "PI"; lit "E"].
Proof. intros. unfold table_names, ctx_of. cbn [d_binary d_unary d_funs d_consts]. rewrite !map_map. reflexivity. Qed.

(** In every shipped arithmetic context, whatever variables with identifiers for names are set. *)
Theorem C102_checked : forall V W (n : num V) L (rnd : W -> f64 * W) docs E dbg cf d c parse, checked_context n L rnd docs E dbg cf = Ok d -> with_variables c (to_ctx E d) -> plain_numbers parse -> apart c parse.
Proof.
  intros V W n L rnd docs E dbg cf d c parse Hd. destruct (ProofCtx.checked_inv n L rnd docs E dbg cf d Hd) as (p & e & _ & _ & ->). apply table_apart. rewrite names_of_ctx. destruct docs; vm_compute; reflexivity.
Qed.
Print Assumptions C102_checked.
Theorem C102_unchecked : forall V W (n : num V) L (rnd : W -> f64 * W) E dbg cf d c parse, unchecked_context n L rnd E dbg cf = Ok d -> with_variables c (to_ctx E d) -> plain_numbers parse -> apart c parse.
Proof.
  intros V W n L rnd E dbg cf d c parse Hd. destruct (ProofCtx.unchecked_inv n L rnd E dbg cf d Hd) as (p & e & _ & _ & ->). apply table_apart. rewrite names_of_ctx. vm_compute. reflexivity.
Qed.
Print Assumptions C102_unchecked.
Theorem C102_decimal : forall D W (L : dlib D) fuel (rnd : W -> f64 * W) E dbg cf d c parse, decimal_context L fuel rnd E dbg cf = Ok d -> with_variables c (to_ctx E d) -> plain_numbers parse -> apart c parse.
Proof.
  intros D W L fuel rnd E dbg cf d c parse Hd. rewrite decimal_is in Hd. injection Hd as <-. apply table_apart. unfold the_ctx. rewrite names_of_ctx. vm_compute. reflexivity.
Qed.
Print Assumptions C102_decimal.
Theorem C102_complex : forall W (L : clib) (rnd : W -> f64 * W) E dbg cf d c parse, complex_context L rnd E dbg cf = Ok d -> with_variables c (to_ctx E d) -> plain_numbers parse -> apart c parse.
Proof.
  intros W L rnd E dbg cf d c parse Hd. rewrite (cx_d L rnd E dbg cf d Hd). apply table_apart. unfold table_names, cx_ctx. cbn [d_binary d_unary d_funs d_consts]. rewrite !map_map. vm_compute. reflexivity.
Qed.
Print Assumptions C102_complex.
(** In the binary context the operators of two characters are the only ones that may be written so. *)
Theorem C102_binary : forall W dbg0 E cf d c parse, binary_context (W := W) dbg0 E cf = Ok d -> with_variables c (to_ctx E d) -> plain_numbers parse ->
  forall x y, sign_char x -> operator_char y -> ~ In [x; y] (map lit ["<<"; ">>"; "=="; "!="; "<="; ">="]) -> names_without c parse x y.
Proof.
  intros W dbg0 E cf d c parse Hd Hw P x y Sx Oy N. rewrite binary_is in Hd. injection Hd as <-.
  refine (names_apart _ _ c _ parse E [(60, 60); (62, 62); (61, 61); (33, 61); (60, 61); (62, 61)] _ Hw P _ (table_found _ _ E _) x y Sx Oy _); [vm_compute; reflexivity|].
  intros I. apply N. cbn in I. cbn. repeat (destruct I as [I|I]; [injection I as <- <-; tauto|]). destruct I.
Qed.
Print Assumptions C102_binary.
(** Machine integers are written so that this holds. *)
Theorem C102_integers : forall t, (0 < bits t)%Z -> plain_numbers (parse_int t).
Proof.
  intros t Ht x y s Sx Oy X. destruct (parse_int t s) as [v|] eqn:P; [|reflexivity]. exfalso. apply C48_numerals in P; [|exact Ht]. destruct P as [P _].
  assert (Dg : forall l u, digits 10 l u -> Forall digit l).
  { intros l u H. induction H as [|l u d z H IH Hd Hz]; [constructor|]. apply Forall_app. split; [exact IH|]. constructor; [|constructor]. unfold digit. lia. }
  assert (Nx : ~ digit x) by apply (sign_not x Sx).
  assert (Ny : ~ digit y). { intros Y. unfold digit in Y. cbn in Oy. repeat (destruct Oy as [<- |Oy]; [lia|]). destruct Oy. }
  assert (Pl : forall l u, digits 10 l u -> ~ next_to x y l).
  { intros l u H (p & q & ->). apply Dg in H. apply Forall_app in H. destruct H as [_ H]. inversion H; contradiction. }
  assert (Sg : forall z l u, digits 10 l u -> ~ next_to x y (z :: l)).
  { intros z l u H (p & q & E0). destruct p as [|z' p]; cbn [app] in E0; injection E0 as -> E0.
    - subst l. apply Dg in H. inversion H; contradiction.
    - apply (Pl l u H). exists p, q. exact E0. }
  destruct P as [l u H _|l u H _|l u H _ _]; [exact (Pl l u H X)|exact (Sg _ l u H X)|exact (Sg _ l u H X)].
Qed.
Print Assumptions C102_integers.

(** Non-vacuity: what one may well write without spaces fails, and with them does not. *)
Definition calc (s : string) : res Z := fst (eval (std_ctx implicit_config) (parse_int i64) dsplitter true (lit s) tt).
Example C102_case : with_variables (std_ctx plain_config) (std_ctx plain_config) /\
  calc "2*-3" = Err InvalidInput /\ calc "2 * -3" = Ok (-6)%Z /\ calc "3!+1" = Err InvalidInput /\ calc "3! + 1" = Ok 7%Z /\ calc "max(1,-2)" = Err InvalidInput /\ calc "max(1, -2)" = Ok 1%Z /\
  next_to 44 45 (lit "max(1,-2)") /\ sign_char 44 /\ operator_char 45.
Proof.
  split; [repeat split; intros q H; exfalso; apply H; reflexivity|]. do 6 (split; [vm_compute; reflexivity|]). split; [exists (lit "max(1"), (lit "2)"); reflexivity|]. split; [split; [cbn; tauto|split; discriminate]|cbn; tauto].
Qed.
