(** * The server and the command line, continued (C61-C63) *)
From Coq Require Import List NArith ZArith Bool Arith Lia String Permutation.
From Verif Require Import ModelBase ModelContext ModelEvaluator ModelText ModelSplit ModelTokenizer ModelDefault ModelFloat ModelNum ModelOps ModelParse ModelBinary ModelDecimal ModelComplex ModelStd
  SpecTokens SpecText SpecExpr SpecOps SpecParse SpecLex SpecTokenizer SpecRepl SpecDecimal ProofText ProofDefault ProofTokens ProofTokens2 ProofLex ProofTok2 ProofRepl ProofFrame2 ProofParse
  ProofBuild ProofCtx ProofDecimal ProofBinary ProofComplex ProofDecRef PropLex PropOps PropFrame ProofOps3.
From Verif Require PropComplex PropBinary PropDecimal2.
From Verif Require Import ModelServer SpecServer ProofServer PropServer.
Import ListNotations.

(** ** C61: the command line and the server *)
Lemma grouping_ignored : forall V W i x f g g' gv gc gf gu gb parse splitter dbg s w,
  eval (@Ctx V W (Config i x f g) gv gc gf gu gb) parse splitter dbg s w = eval (Ctx (Config i x f g') gv gc gf gu gb) parse splitter dbg s w.
Proof. reflexivity. Qed.

(** For every type but float, the server answers a request without variables as the command line does. (Both accept brackets: the
    symbols configured are not looked at, C24.) *)
Theorem C61_same_as_server : forall D W (sv : service D W) E dbg t e vars w, t <> NFloat -> vars = None \/ vars = Some [] ->
  eval_expression sv E dbg (Request e (Some t) vars) w =
  match cli_eval sv E dbg t e w with (Ok s, w') => (Ok (inl s), w') | (Err k, w') => (Ok (inr (Failure k)), w') | (Panic, w') => (Panic, w') end.
Proof.
  intros D W sv E dbg t e vars w Ht Hv. destruct (served sv E dbg t) as (V & k & S).
  destruct (C61_contexts D W sv E dbg t V k (Runs_other sv E dbg t V k Ht S)) as (d & Hd & _ & -> & _).
  rewrite (dispatch sv E dbg t V k S (Request e (Some t) vars) w eq_refl). cbn [q_variables q_expression].
  destruct (same_tables sv E dbg t V k S _ (server_settings t) d Hd) as (d' & Hd' & A1 & A2 & A3 & A4 & A5). rewrite Hd'. unfold eval_typed, printed.
  assert (X : match vars with Some l => l | None => [] end = []) by (destruct Hv as [-> | ->]; reflexivity). rewrite X. cbn [set_variables].
  assert (C : d_config d = command_line_settings t /\ d_config d' = server_settings t).
  { clear - S Hd Hd'. destruct S; cbn [k_context decimal_kind float_kind integer_kind complex_kind binary_kind] in *; unfold decimals, checked_floats, integers, complexes, binaries in *.
    - rewrite decimal_is in *. injection Hd as <-. injection Hd' as <-. auto.
    - apply checked_inv in Hd, Hd'. destruct Hd as (? & ? & _ & _ & ->), Hd' as (? & ? & _ & _ & ->). auto.
    - apply checked_inv in Hd, Hd'. destruct Hd as (? & ? & _ & _ & ->), Hd' as (? & ? & _ & _ & ->). auto.
    - rewrite complex_is in *. injection Hd as <-. injection Hd' as <-. auto.
    - rewrite binary_is in *. injection Hd as <-. injection Hd' as <-. auto. }
  destruct C as [C1 C2].
  assert (Y : eval (to_ctx E d') (k_parse k) (split_into_tokens (k_rules k)) dbg e w = eval (to_ctx E d) (k_parse k) (split_into_tokens (k_rules k)) dbg e w).
  { unfold to_ctx. rewrite A1, A2, A3, A4, A5, C1, C2. unfold command_line_settings, server_settings. apply grouping_ignored. }
  rewrite Y. clear Y. destruct (eval (to_ctx E d) (k_parse k) (split_into_tokens (k_rules k)) dbg e w) as [[v|kk|] w']; reflexivity.
Qed.
Print Assumptions C61_same_as_server.

(** For floats they differ: [abs] is unknown on the command line. *)
Theorem C61_float_refuted : forall D W (sv : service D W) E dbg,
  (forall cf d, checked_floats sv E dbg cf = Ok d -> get_function (to_ctx E d) (lit "abs") <> None) /\
  (forall cf d, unchecked_floats sv E dbg cf = Ok d -> get_function (to_ctx E d) (lit "abs") = None).
Proof.
  intros D W sv E dbg. split; intros cf d H.
  - unfold checked_floats in H. apply checked_inv in H. destruct H as (p & e & _ & _ & ->). unfold to_ctx, ctx_of. cbn [get_function d_funs].
    apply (listed_names E). rewrite map_map. cbn [fst]. do 5 right; left; reflexivity.
  - unfold unchecked_floats in H. apply unchecked_inv in H. destruct H as (p & e & _ & _ & ->). unfold to_ctx, ctx_of. cbn [get_function d_funs].
    apply absent; [reflexivity|]. vm_compute. reflexivity.
Qed.
Print Assumptions C61_float_refuted.
Definition float_service : service dec unit :=
  Service dec unit ref_lib 200 no_libm PropComplex.no_clib no_random false 200 (fun _ => None) (fun s => option_map f_of_Z (parse_int i64 s)) (fun _ => None) (fun _ => []) (fun x => if SpecFloat.SFeqb x (f_of_Z 3) then lit "3" else lit "?") (fun _ => []).
Example C61_case : fst (eval_expression float_service std_env true (ask "abs(-3)" NFloat []) tt) = Ok (inl (lit "3")) /\
  fst (cli_eval float_service std_env true NFloat (lit "abs(-3)") tt) = Err InvalidInput /\ fst (cli_eval float_service std_env true NFloat (lit "4 - 1") tt) = Ok (lit "3") /\
  fst (cli_eval float_service std_env true NInteger (lit "[4 - 1]2") tt) = Ok (lit "6") /\ fst (cli_eval float_service std_env true NBinary (lit "b101 xor b110") tt) = Ok (lit "11") /\
  eval_type_from_str (lit "Integer") = None.
Proof. repeat split; vm_compute; reflexivity. Qed.

(** Names are listed in a column: each padded with at least four spaces to the same number of bytes. *)
Theorem C61_columns : forall names n, In n names ->
  byte_len (pad_right n (column_width names)) = column_width names /\ exists k, (4 <= k)%nat /\ pad_right n (column_width names) = n ++ repeat 32%N k.
Proof.
  intros names n H. assert (L : (byte_len n <= fold_right Nat.max 0 (map byte_len names))%nat).
  { induction names as [|m names IH]; [destruct H|]. cbn [map fold_right]. destruct H as [->|H]; [lia|]. specialize (IH H). lia. }
  unfold column_width, pad_right in *. destruct (Nat.ltb_spec (byte_len n) (fold_right Nat.max 0 (map byte_len names) + 4)) as [Q|Q]; [|lia]. split.
  - assert (R : forall a b, byte_len (a ++ b) = (byte_len a + byte_len b)%nat) by (intros a b; unfold byte_len, utf8; rewrite map_app, concat_app, app_length; reflexivity).
    assert (P : forall k, byte_len (repeat 32%N k) = k) by (induction k as [|k IH]; [reflexivity|]; change (repeat 32%N (S k)) with ([32%N] ++ repeat 32%N k); rewrite R, IH; reflexivity).
    rewrite R, P. lia.
  - eexists. split; [|reflexivity]. lia.
Qed.
Print Assumptions C61_columns.
Example C61_columns_case : map (fun n => pad_right n (column_width [lit "sum"; lit "asinh"])) [lit "sum"; lit "asinh"] = [lit "sum      "; lit "asinh    "].
Proof. reflexivity. Qed.

(** ** C62: requests that cannot panic *)
Lemma safe_with : forall V W E (d d' : dctx V W) t, same_but_variables d d' -> calls_safely (to_ctx E d) t -> calls_safely (to_ctx E d') t.
Proof. intros V W E d d' t (_ & A & B & C & _) H. unfold calls_safely, to_ctx in *. destruct t; cbn [get_function get_unary get_binary] in *; rewrite ?A, ?B, ?C; exact H. Qed.
Lemma kinds_shipped : forall D W (sv : service D W) E dbg t V (k : kind V W), serves sv E dbg t V k -> Forall shipped (k_rules k).
Proof. intros D W sv E dbg t V k S. destruct S; apply splitters_shipped; cbn; auto. Qed.

(** If no operation named in an ASCII expression panics, whatever it is applied to, the request does not. *)
Lemma request_safe : forall D W (sv : service D W) E dbg q t V (k : kind V W) d, asked q = t -> serves sv E dbg t V k -> k_context k (server_settings t) = Ok d -> NoDup (map fst (given q)) -> ascii (q_expression q) ->
  (forall x, In x (split_into_tokens (k_rules k) (q_expression q)) -> calls_safely (to_ctx E d) (TFunction x) /\ calls_safely (to_ctx E d) (TUnary x) /\ calls_safely (to_ctx E d) (TBinary x)) ->
  calls_safely (to_ctx E d) (TBinary star) -> forall w, fst (eval_expression sv E dbg q w) <> Panic.
Proof.
  intros D W sv E dbg q t V k d Ht S Hd Nd Ha Hx Hs w. destruct (C37_values D W sv E dbg q t V k Ht S Nd) as (d0 & H0 & _ & H). assert (d0 = d) by congruence. subst d0. destruct (H w) as [Ha1 Hb1].
  destruct (acceptables_dec sv E dbg (k_read k) d (given q)) as [F|F]; [|destruct (Hb1 F) as (m & ->); discriminate]. destruct (Ha1 F) as (d' & (Sm & _) & ->).
  assert (NP : fst (eval (to_ctx E d') (k_parse k) (split_into_tokens (k_rules k)) dbg (q_expression q) w) <> Panic).
  { apply text_no_panic; [exact (kinds_shipped D W sv E dbg t V k S)|exact Ha| |intros _; exact (safe_with _ _ E d d' _ Sm Hs)].
    intros x Hin. destruct (Hx x Hin) as (X1 & X2 & X3). repeat split; eapply safe_with; eassumption. }
  destruct (eval _ _ _ _ _ _) as [[v|kk|] w']; cbn [answer_to fst] in *; congruence.
Qed.

(** Requests for complex numbers, with ASCII expressions, are always answered. *)
Theorem C62_complex : forall D W (sv : service D W) E dbg q only w, asked q = NComplex -> NoDup (map fst (given q)) -> ascii (q_expression q) ->
  exists r, fst (endpoint sv E dbg (Received q) only w) = Ok (200%N, r).
Proof.
  intros D W sv E dbg q only w Ht Nd Ha. destruct (contexts_made sv E dbg NComplex _ _ (Serves_complex sv E dbg) (server_settings NComplex)) as (d & Hd).
  pose proof (fun t => PropComplex.complex_safe W (s_clib sv) (s_random sv) E dbg _ d Hd t) as C.
  pose proof (request_safe D W sv E dbg q _ _ _ d Ht (Serves_complex sv E dbg) Hd Nd Ha (fun x _ => conj (C _) (conj (C _) (C _))) (C _) w) as NP.
  destruct (C37_answers D W sv E dbg (Received q) only w) as [([st r] & H)|(q' & X & H)]; [|injection X as <-; contradiction].
  exists r. rewrite H. destruct (endpoint sv E dbg (Received q) only w) as [a w'] eqn:Q. cbn [fst] in H. subst a. destruct (C37_exactly_one _ _ _ _ _ _ _ _ _ _ _ Q) as [(_ & _ & X & _)|(-> & _)]; [exfalso; apply (X q); reflexivity|reflexivity].
Qed.
Print Assumptions C62_complex.

(** So are those for integers and floats that mention neither [!] nor [avg], ... *)
Theorem C62_checked : forall D W (sv : service D W) E dbg q only w, asked q = NInteger \/ asked q = NFloat -> NoDup (map fst (given q)) -> ascii (q_expression q) ->
  (forall x, In x (split_into_tokens default_splitter (q_expression q)) -> eq_ignore_case E x (lit "!") = false /\ eq_ignore_case E x (lit "avg") = false) ->
  exists r, fst (endpoint sv E dbg (Received q) only w) = Ok (200%N, r).
Proof.
  intros D W sv E dbg q only w Ht Nd Ha Hx.
  assert (NP : fst (eval_expression sv E dbg q w) <> Panic).
  { assert (G : forall V (n : num V) L rnd docs cf d, checked_context n L rnd docs E dbg cf = Ok d -> forall x,
      (eq_ignore_case E x (lit "!") = false /\ eq_ignore_case E x (lit "avg") = false -> calls_safely (W := W) (to_ctx E d) (TFunction x) /\ calls_safely (to_ctx E d) (TUnary x)) /\ calls_safely (to_ctx E d) (TBinary x)).
    { intros V n L rnd docs cf d Hd x. pose proof (fun w => C28_builtins_never_panic V W n L rnd docs E dbg cf d Hd x w) as C. unfold calls_safely. split; [intros [X1 X2]; split|].
      - intros f args w' Hf. destruct (C w') as (_ & _ & C3). specialize (C3 args X2). unfold apply_function in C3. rewrite Hf in C3. exact C3.
      - intros f y w' Hf. destruct (C w') as (_ & C2 & _). specialize (C2 y X1). unfold apply_unary in C2. rewrite Hf in C2. exact C2.
      - intros f y z w' Hf. destruct (C w') as (C1 & _). specialize (C1 y z). unfold apply_binary in C1. rewrite Hf in C1. exact C1. }
    destruct Ht as [Ht|Ht].
    - destruct (contexts_made sv E dbg NInteger _ _ (Serves_integer sv E dbg) (server_settings NInteger)) as (d & Hd).
      apply (request_safe D W sv E dbg q _ _ _ d Ht (Serves_integer sv E dbg) Hd Nd Ha).
      + intros x Hin. destruct (G _ _ _ _ _ _ d Hd x) as [G1 G2]. destruct (G1 (Hx x Hin)). auto.
      + apply (G _ _ _ _ _ _ d Hd).
    - destruct (contexts_made sv E dbg NFloat _ _ (Serves_float sv E dbg) (server_settings NFloat)) as (d & Hd).
      apply (request_safe D W sv E dbg q _ _ _ d Ht (Serves_float sv E dbg) Hd Nd Ha).
      + intros x Hin. destruct (G _ _ _ _ _ _ d Hd x) as [G1 G2]. destruct (G1 (Hx x Hin)). auto.
      + apply (G _ _ _ _ _ _ d Hd). }
  destruct (C37_answers D W sv E dbg (Received q) only w) as [([st r] & H)|(q' & X & H)]; [|injection X as <-; contradiction].
  exists r. rewrite H. destruct (endpoint sv E dbg (Received q) only w) as [a w'] eqn:Q. cbn [fst] in H. subst a. destruct (C37_exactly_one _ _ _ _ _ _ _ _ _ _ _ Q) as [(_ & _ & X & _)|(-> & _)]; [exfalso; apply (X q); reflexivity|reflexivity].
Qed.
Print Assumptions C62_checked.

(** ... those for binary numbers, in debug builds if they mention no shift, ... *)
Theorem C62_binary : forall D W (sv : service D W) E dbg q only w, asked q = NBinary -> NoDup (map fst (given q)) -> ascii (q_expression q) ->
  (dbg = true -> forall x, In x (split_into_tokens binary_number_splitter (q_expression q)) -> forall name, In name [">>"; "shr"; "<<"; "shl"]%string -> eq_ignore_case E x (lit name) = false) ->
  exists r, fst (endpoint sv E dbg (Received q) only w) = Ok (200%N, r).
Proof.
  intros D W sv E dbg q only w Ht Nd Ha Hx. destruct (contexts_made sv E dbg NBinary _ _ (Serves_binary sv E dbg) (server_settings NBinary)) as (d & Hd).
  destruct (PropBinary.binary_safe W dbg E _ d Hd) as (SF & SU & SB).
  assert (NP : fst (eval_expression sv E dbg q w) <> Panic).
  { apply (request_safe D W sv E dbg q _ _ _ d Ht (Serves_binary sv E dbg) Hd Nd Ha).
    - intros x Hin. split; [apply SF|]. split; [apply SU|]. apply SB. intros Hb. exact (Hx Hb x Hin).
    - apply SB. intros _ nm Hn. destruct Hn as [<-|[<-|[<-|[<-|[]]]]]; reflexivity. }
  destruct (C37_answers D W sv E dbg (Received q) only w) as [([st r] & H)|(q' & X & H)]; [|injection X as <-; contradiction].
  exists r. rewrite H. destruct (endpoint sv E dbg (Received q) only w) as [a w'] eqn:Q. cbn [fst] in H. subst a. destruct (C37_exactly_one _ _ _ _ _ _ _ _ _ _ _ Q) as [(_ & _ & X & _)|(-> & _)]; [exfalso; apply (X q); reflexivity|reflexivity].
Qed.
Print Assumptions C62_binary.

(** ... and, if decimals compute exactly or report overflow, those for decimals that mention none of the operations of C53. *)
Theorem C62_decimal : forall D W (sv : service D W) E dbg q only w value, exact_decimals (s_dlib sv) value -> (40 <= s_fuel sv)%nat -> asked q = NDecimal -> NoDup (map fst (given q)) -> ascii (q_expression q) ->
  (forall x, In x (split_into_tokens default_splitter (q_expression q)) -> forall name, In name ("!" :: "^" :: PropDecimal2.may_panic)%string -> eq_ignore_case E x (lit name) = false) ->
  exists r, fst (endpoint sv E dbg (Received q) only w) = Ok (200%N, r).
Proof.
  intros D W sv E dbg q only w value EX Hf Ht Nd Ha Hx. destruct (contexts_made sv E dbg NDecimal _ _ (Serves_decimal sv E dbg) (server_settings NDecimal)) as (d & Hd).
  destruct (PropDecimal2.decimal_safe D W (s_dlib sv) value EX (s_fuel sv) (s_random sv) E dbg _ d Hd Hf) as (SF & SU & SB).
  assert (NP : fst (eval_expression sv E dbg q w) <> Panic).
  { apply (request_safe D W sv E dbg q _ _ _ d Ht (Serves_decimal sv E dbg) Hd Nd Ha).
    - intros x Hin. split; [apply SF; intros g Hg; apply (Hx x Hin); do 2 right; exact Hg|]. split; [apply SU, (Hx x Hin); left; reflexivity|]. apply SB, (Hx x Hin). right; left; reflexivity.
    - apply SB. reflexivity. }
  destruct (C37_answers D W sv E dbg (Received q) only w) as [([st r] & H)|(q' & X & H)]; [|injection X as <-; contradiction].
  exists r. rewrite H. destruct (endpoint sv E dbg (Received q) only w) as [a w'] eqn:Q. cbn [fst] in H. subst a. destruct (C37_exactly_one _ _ _ _ _ _ _ _ _ _ _ Q) as [(_ & _ & X & _)|(-> & _)]; [exfalso; apply (X q); reflexivity|reflexivity].
Qed.
Print Assumptions C62_decimal.

(** Other requests can panic: an expression that is not ASCII, a factorial that is too large (debug builds), a shift (debug builds). *)
Theorem C62_always_refuted : exists q1 q2 q3, fst (endpoint example_service std_env true (Received q1) None tt) = Panic /\ asked q1 = NComplex /\
  fst (endpoint example_service std_env true (Received q2) None tt) = Panic /\ asked q2 = NInteger /\ ascii (q_expression q2) /\
  fst (endpoint example_service std_env true (Received q3) None tt) = Panic /\ asked q3 = NBinary /\ ascii (q_expression q3).
Proof.
  exists (Request ([8730%N] ++ lit " - i") (Some NComplex) None), (ask "34!" NInteger []), (ask "1 << 200" NBinary []).
  split; [vm_compute; reflexivity|]. split; [reflexivity|]. split; [vm_compute; reflexivity|]. split; [reflexivity|]. split; [repeat constructor|]. split; [vm_compute; reflexivity|]. split; [reflexivity|repeat constructor].
Qed.
Print Assumptions C62_always_refuted.
Example C62_case : ascii (lit "sqrt(2 + 3)^2 mod 7") /\ (forall x, In x (split_into_tokens default_splitter (lit "sqrt(2 + 3)^2 mod 7")) -> eq_ignore_case std_env x (lit "!") = false /\ eq_ignore_case std_env x (lit "avg") = false).
Proof.
  split; [repeat constructor|]. assert (B : forallb (fun x => negb (eq_ignore_case std_env x (lit "!")) && negb (eq_ignore_case std_env x (lit "avg"))) (split_into_tokens default_splitter (lit "sqrt(2 + 3)^2 mod 7")) = true) by (vm_compute; reflexivity).
  rewrite forallb_forall in B. intros x Hx. specialize (B x Hx). apply andb_prop in B. destruct B as [B1 B2]. apply negb_true_iff in B1, B2. auto.
Qed.

(** ** C63: integers written are read back *)
Lemma decimal_digits_ok : forall fuel z acc, (0 <= z < 2 ^ Z.of_nat fuel)%Z -> exists s, decimal_digits fuel z acc = s ++ acc /\ digits 10 s z /\ (fuel <> 0%nat -> s <> []).
Proof.
  induction fuel as [|fuel IH]; intros z acc H.
  - cbn in H. assert (z = 0)%Z by lia. subst. exists []. split; [reflexivity|]. split; [constructor|congruence].
  - cbn [decimal_digits]. pose proof (Z.mod_pos_bound z 10 ltac:(lia)) as M. pose proof (Z.div_mod z 10 ltac:(lia)) as DM. set (c := Z.to_N (48 + z mod 10)).
    assert (Hc : Z.of_N c = (48 + z mod 10)%Z) by (unfold c; rewrite Z2N.id; lia).
    destruct (Z.ltb_spec z 10) as [L|L].
    + exists [c]. split; [reflexivity|]. split; [|intros _; discriminate]. change [c] with ([] ++ [c])%list. replace z with (10 * 0 + z mod 10)%Z at 1 by (rewrite Z.mod_small; lia). apply digits_more; [constructor|exact M|exact Hc].
    + destruct (IH (z / 10)%Z (c :: acc)) as (s & H1 & H2 & H3).
      { rewrite Nat2Z.inj_succ, Z.pow_succ_r in H by lia. split; [apply Z.div_pos; lia|]. apply Z.div_lt_upper_bound; [lia|]. lia. }
      exists (s ++ [c]). rewrite H1, <- app_assoc. split; [reflexivity|]. split; [|intros _ X; destruct s; discriminate].
      replace z with (10 * (z / 10) + z mod 10)%Z at 1 by lia. apply digits_more; [exact H2|exact M|exact Hc].
Qed.
Lemma shown_digits : forall z, (0 <= z)%Z -> exists s, decimal_digits (S (Z.to_nat (Z.log2 z))) z [] = s /\ digits 10 s z /\ s <> [].
Proof.
  intros z H. destruct (decimal_digits_ok (S (Z.to_nat (Z.log2 z))) z []) as (s & H1 & H2 & H3).
  { split; [exact H|]. rewrite Nat2Z.inj_succ, Z2Nat.id by apply Z.log2_nonneg. destruct (Z.eq_dec z 0) as [->|N]; [reflexivity|]. apply Z.log2_spec. lia. }
  rewrite app_nil_r in H1. eauto.
Qed.
(** A number of a machine integer type, written as a result is, reads as the same number. *)
Theorem C63_integers_round_trip : forall t z, (0 < bits t)%Z -> fits t z -> parse_int t (show_int z) = Some z.
Proof.
  intros t z Hb Hf. apply parse_int_spec; [exact Hb|]. split; [|exact Hf]. unfold show_int. destruct (Z.ltb_spec z 0) as [N|N].
  - destruct (shown_digits (- z)%Z ltac:(lia)) as (s & -> & H1 & H2). assert (Q : signed t = true) by (destruct (signed t) eqn:Q; [reflexivity|]; exfalso; unfold fits in Hf; rewrite Q in Hf; lia).
    pose proof (numeral_minus 10 (signed t) s (- z) H1 H2 Q) as X. rewrite Z.opp_involutive in X. exact X.
  - destruct (shown_digits z N) as (s & -> & H1 & H2). apply numeral_plain; assumption.
Qed.
Print Assumptions C63_integers_round_trip.
(** So the result of one integer request can be the value of a variable in the next. *)
Theorem C63_feed_back : forall D W (sv : service D W) E dbg d name z, fits i128 z -> integers sv E dbg (server_settings NInteger) = Ok d -> assignable E dbg d name ->
  accepted sv E dbg (parse_int i128) d (name, VString (show_int z)) /\
  forall d', with_variables sv E (parse_int i128) d [(name, VString (show_int z))] d' -> get_variable (to_ctx E d') name = Some z.
Proof.
  intros D W sv E dbg d name z Hf Hd A. assert (R : parse_int i128 (show_int z) = Some z) by (apply C63_integers_round_trip; [reflexivity|exact Hf]). split.
  - split; [exact A|]. cbn [snd value_text]. rewrite R. discriminate.
  - intros d' (_ & _ & H). rewrite (H name _ (or_introl eq_refl)). exact R.
Qed.
Print Assumptions C63_feed_back.
Example C63_case : show_int (-170141183460469231731687303715884105728) = lit "-170141183460469231731687303715884105728" /\ show_int 0 = lit "0" /\ show_int 100 = lit "100" /\
  parse_int u8 (show_int 255) = Some 255%Z.
Proof. vm_compute. repeat split. Qed.
