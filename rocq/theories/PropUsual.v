(** * C54: the operators of the shipped contexts have the usual precedences *)
From Coq Require Import List NArith ZArith Bool Lia String.
From Verif Require Import ModelBase ModelContext ModelEvaluator ModelText ModelDefault ModelFloat ModelNum ModelOps ModelDecimal ModelComplex ModelStd
  SpecText SpecExpr SpecUsual ProofText ProofRpn ProofCtx ProofDecimal ProofComplex.
From Verif Require PropEvaluator.
Import ListNotations.

(** [c] is a shipped context for arithmetic: checked or unchecked over any number type, decimal, or complex. *)
Inductive arithmetic_context {W} : forall V, ctx V W -> Prop :=
| AC_checked : forall V (n : num V) L (rnd : W -> f64 * W) docs E dbg cf d, checked_context n L rnd docs E dbg cf = Ok d -> arithmetic_context V (to_ctx E d)
| AC_unchecked : forall V (n : num V) L (rnd : W -> f64 * W) E dbg cf d, unchecked_context n L rnd E dbg cf = Ok d -> arithmetic_context V (to_ctx E d)
| AC_decimal : forall D (L : dlib D) fuel (rnd : W -> f64 * W) E dbg cf d, decimal_context L fuel rnd E dbg cf = Ok d -> arithmetic_context D (to_ctx E d)
| AC_complex : forall L (rnd : W -> f64 * W) E dbg cf d, complex_context L rnd E dbg cf = Ok d -> arithmetic_context c64 (to_ctx E d).

Lemma usual_table : forall W V (c : ctx V W), arithmetic_context V c -> forall s o, In s usual_operators -> ascii_alike o (lit s) ->
  exists f, get_binary c o = Some f /\ bf_prec f = N.of_nat (level s) /\ bf_assoc f = if String.eqb s "^" then RightA else LeftA.
Proof.
  intros W V c Hc s o Hs Ho. unfold usual_operators in Hs. cbn [In] in Hs.
  destruct Hc as [V n L rnd docs E dbg cf d Hd|V n L rnd E dbg cf d Hd|D L fuel rnd E dbg cf d Hd|L rnd E dbg cf d Hd].
  - destruct Hs as [<-|[<-|[<-|[<-|[<-|[<-|[]]]]]]]; eexists; (split; [|split; [|]]).
    all: [> exact (checked_bin n L rnd docs E dbg cf d 0 _ o Hd eq_refl Ho) | reflexivity | reflexivity
          | exact (checked_bin n L rnd docs E dbg cf d 1 _ o Hd eq_refl Ho) | reflexivity | reflexivity
          | exact (checked_bin n L rnd docs E dbg cf d 2 _ o Hd eq_refl Ho) | reflexivity | reflexivity
          | exact (checked_bin n L rnd docs E dbg cf d 3 _ o Hd eq_refl Ho) | reflexivity | reflexivity
          | exact (checked_bin n L rnd docs E dbg cf d 5 _ o Hd eq_refl Ho) | reflexivity | reflexivity
          | exact (checked_bin n L rnd docs E dbg cf d 4 _ o Hd eq_refl Ho) | reflexivity | reflexivity ].
  - destruct Hs as [<-|[<-|[<-|[<-|[<-|[<-|[]]]]]]]; eexists; (split; [|split; [|]]).
    all: [> exact (unchecked_bin n L rnd E dbg cf d 0 _ o Hd eq_refl Ho) | reflexivity | reflexivity
          | exact (unchecked_bin n L rnd E dbg cf d 1 _ o Hd eq_refl Ho) | reflexivity | reflexivity
          | exact (unchecked_bin n L rnd E dbg cf d 2 _ o Hd eq_refl Ho) | reflexivity | reflexivity
          | exact (unchecked_bin n L rnd E dbg cf d 3 _ o Hd eq_refl Ho) | reflexivity | reflexivity
          | exact (unchecked_bin n L rnd E dbg cf d 5 _ o Hd eq_refl Ho) | reflexivity | reflexivity
          | exact (unchecked_bin n L rnd E dbg cf d 4 _ o Hd eq_refl Ho) | reflexivity | reflexivity ].
  - destruct Hs as [<-|[<-|[<-|[<-|[<-|[<-|[]]]]]]]; eexists; (split; [|split; [|]]).
    all: [> exact (dec_bin L fuel rnd E dbg cf d Hd 0 _ o eq_refl Ho) | reflexivity | reflexivity
          | exact (dec_bin L fuel rnd E dbg cf d Hd 1 _ o eq_refl Ho) | reflexivity | reflexivity
          | exact (dec_bin L fuel rnd E dbg cf d Hd 2 _ o eq_refl Ho) | reflexivity | reflexivity
          | exact (dec_bin L fuel rnd E dbg cf d Hd 3 _ o eq_refl Ho) | reflexivity | reflexivity
          | exact (dec_bin L fuel rnd E dbg cf d Hd 5 _ o eq_refl Ho) | reflexivity | reflexivity
          | exact (dec_bin L fuel rnd E dbg cf d Hd 4 _ o eq_refl Ho) | reflexivity | reflexivity ].
  - destruct Hs as [<-|[<-|[<-|[<-|[<-|[<-|[]]]]]]]; eexists; (split; [|split; [|]]).
    all: [> exact (cx_bin L rnd E dbg cf d Hd 0 _ o eq_refl Ho) | reflexivity | reflexivity
          | exact (cx_bin L rnd E dbg cf d Hd 1 _ o eq_refl Ho) | reflexivity | reflexivity
          | exact (cx_bin L rnd E dbg cf d Hd 2 _ o eq_refl Ho) | reflexivity | reflexivity
          | exact (cx_bin L rnd E dbg cf d Hd 3 _ o eq_refl Ho) | reflexivity | reflexivity
          | exact (cx_bin L rnd E dbg cf d Hd 4 _ o eq_refl Ho) | reflexivity | reflexivity
          | exact (cx_bin L rnd E dbg cf d Hd 5 _ o eq_refl Ho) | reflexivity | reflexivity ].
Qed.

(** [a s1 b s2 d] is read as usual, whatever [a], [b] and [d] are (numbers, names, calls, groups). *)
Theorem C54_precedences : forall W V (c : ctx V W), arithmetic_context V c -> forall dbg s1 s2 o1 o2 a b d w,
  In s1 usual_operators -> In s2 usual_operators -> ascii_alike o1 (lit s1) -> ascii_alike o2 (lit s2) ->
  wf c a -> wf c b -> wf c d -> is_primary a = true -> is_primary b = true -> is_primary d = true ->
  eval_tokens c dbg (print a ++ [TBinary o1] ++ print b ++ [TBinary o2] ++ print d) w =
  denote c (if usual_left s1 s2 then EBin o2 (EBin o1 a b) d else EBin o1 a (EBin o2 b d)) w.
Proof.
  intros W V c Hc dbg s1 s2 o1 o2 a b d w H1 H2 A1 A2 Wa Wb Wd Pa Pb Pd.
  destruct (usual_table W V c Hc s1 o1 H1 A1) as (f1 & G1 & P1 & S1), (usual_table W V c Hc s2 o2 H2 A2) as (f2 & G2 & P2 & S2).
  destruct (PropEvaluator.C01_two_operators V W c dbg a o1 b o2 d w Wa Wb Wd Pa Pb Pd ltac:(congruence) ltac:(congruence)) as [L R].
  assert (GL : groups_left c o1 o2 <-> usual_left s1 s2 = true).
  { unfold groups_left, usual_left. rewrite orb_true_iff, andb_true_iff, Nat.ltb_lt, Nat.eqb_eq, negb_true_iff. split.
    - intros (g1 & g2 & E1 & E2 & K). rewrite G1 in E1. rewrite G2 in E2. injection E1 as <-. injection E2 as <-. rewrite P1, P2, S1 in K.
      destruct K as [K|[K1 K2]]; [left; lia|right; split; [lia|]]. destruct (String.eqb s1 "^"); [discriminate|reflexivity].
    - intros K. exists f1, f2. split; [exact G1|]. split; [exact G2|]. rewrite P1, P2, S1. destruct K as [K|[K1 K2]]; [left; lia|right; split; [lia|]]. rewrite K2. reflexivity. }
  destruct (usual_left s1 s2); [apply L, GL; reflexivity|apply R; rewrite GL; discriminate].
Qed.
Print Assumptions C54_precedences.

(** These are the only binary operators, and the signs and [!] the only unary ones (complex contexts have no [!]). *)
Lemma ascii_lit : forall s, forallb (fun x => N.ltb x 128) (lit s) = true -> ascii_string (lit s).
Proof. intros s H. apply Forall_forall. intros x Hx. apply N.ltb_lt. exact (proj1 (forallb_forall _ _) H x Hx). Qed.
Lemma no_other : forall E o l, ascii_string o -> (forall s, In s l -> ascii_string (lit s)) -> forall n, In n (map lit l) -> eq_ignore_case E o n = true ->
  exists s, In s l /\ ascii_alike o (lit s).
Proof.
  intros E o l Ao Al n Hn He. apply in_map_iff in Hn. destruct Hn as (s & <- & Hs). exists s. split; [exact Hs|]. apply (ascii_eq_ic E); [exact Ao|apply Al, Hs|exact He].
Qed.
Theorem C54_no_others : forall W V (c : ctx V W), arithmetic_context V c -> forall o, ascii_string o ->
  (get_binary c o <> None -> exists s, In s usual_operators /\ ascii_alike o (lit s)) /\
  (get_unary c o <> None -> exists s, In s ["+"; "-"; "!"]%string /\ ascii_alike o (lit s)).
Proof.
  intros W V c Hc o Ao.
  assert (A1 : forall s, In s usual_operators -> ascii_string (lit s)).
  { intros s Hs. apply ascii_lit. unfold usual_operators in Hs. cbn [In] in Hs. repeat (destruct Hs as [<-|Hs]; [reflexivity|]). contradiction. }
  assert (A2 : forall s, In s ["+"; "-"; "!"]%string -> ascii_string (lit s)).
  { intros s Hs. apply ascii_lit. cbn [In] in Hs. repeat (destruct Hs as [<-|Hs]; [reflexivity|]). contradiction. }
  assert (B : forall E (l : list (bfunc V W)) f, incl (map bf_name l) (map lit usual_operators) -> In f l /\ eq_ignore_case E o (bf_name f) = true ->
    exists s, In s usual_operators /\ ascii_alike o (lit s)).
  { intros E l f Hl [Hf He]. apply (no_other E o usual_operators Ao A1 (bf_name f)); [apply Hl, in_map, Hf|exact He]. }
  assert (U : forall E (l : list (ufunc V W)) f, incl (map uf_name l) (map lit ["+"; "-"; "!"]%string) -> In f l /\ eq_ignore_case E o (uf_name f) = true ->
    exists s, In s ["+"; "-"; "!"]%string /\ ascii_alike o (lit s)).
  { intros E l f Hl [Hf He]. apply (no_other E o ["+"; "-"; "!"]%string Ao A2 (uf_name f)); [apply Hl, in_map, Hf|exact He]. }
  destruct Hc as [V n L rnd docs E dbg cf d Hd|V n L rnd E dbg cf d Hd|D L fuel rnd E dbg cf d Hd|L rnd E dbg cf d Hd].
  - apply checked_inv in Hd. destruct Hd as (p & e & _ & _ & ->). split.
    + destruct (get_binary _ o) as [f|] eqn:G; [intros _|congruence]. apply (B E (checked_bins n L) f); [|eapply found_bin; exact G].
      intros x Hx. cbn in Hx. unfold usual_operators. cbn. tauto.
    + destruct (get_unary _ o) as [f|] eqn:G; [intros _|congruence]. apply (U E (checked_uns n L) f); [|eapply found_un; exact G].
      intros x Hx. cbn in Hx. cbn. tauto.
  - apply unchecked_inv in Hd. destruct Hd as (p & e & _ & _ & ->). split.
    + destruct (get_binary _ o) as [f|] eqn:G; [intros _|congruence]. apply (B E (unchecked_bins n L) f); [|eapply found_bin; exact G].
      intros x Hx. cbn in Hx. unfold usual_operators. cbn. tauto.
    + destruct (get_unary _ o) as [f|] eqn:G; [intros _|congruence]. apply (U E (unchecked_uns n L) f); [|eapply found_un; exact G].
      intros x Hx. cbn in Hx. cbn. tauto.
  - split.
    + destruct (get_binary _ o) as [f|] eqn:G; [intros _|congruence]. apply (B E (dec_bins L fuel) f); [|eapply dec_bin_found; [exact Hd|exact G]].
      intros x Hx. cbn in Hx. unfold usual_operators. cbn. tauto.
    + destruct (get_unary _ o) as [f|] eqn:G; [intros _|congruence]. apply (U E (dec_uns L fuel) f); [|eapply dec_un_found; [exact Hd|exact G]].
      intros x Hx. cbn in Hx. cbn. tauto.
  - split.
    + destruct (get_binary _ o) as [f|] eqn:G; [intros _|congruence]. apply (B E (cx_bins L) f); [|eapply cx_bin_found; [exact Hd|exact G]].
      intros x Hx. cbn in Hx. unfold usual_operators. cbn. tauto.
    + destruct (get_unary _ o) as [f|] eqn:G; [intros _|congruence]. apply (U E cx_uns f); [|eapply cx_un_found; [exact Hd|exact G]].
      intros x Hx. cbn in Hx. cbn. tauto.
Qed.
Print Assumptions C54_no_others.

(** The hypotheses are met: [2 + 3 * 4] over the integers. *)
Example C54_case : exists d, checked_context (int_num i64 true) no_libm no_random true std_env true plain_config = Ok d /\ arithmetic_context Z (to_ctx std_env d) /\
  usual_left "+" "*" = false /\ usual_left "*" "+" = true /\ usual_left "^" "^" = false /\ usual_left "-" "-" = true /\ usual_left "mod" "/" = true /\
  fst (eval_tokens (to_ctx std_env d) true (print (ENum 2%Z) ++ [TBinary (lit "+")] ++ print (ENum 3%Z) ++ [TBinary (lit "*")] ++ print (ENum 4%Z)) tt) = Ok 14%Z.
Proof.
  assert (X : match checked_context (int_num i64 true) no_libm no_random true std_env true plain_config with Ok _ => True | _ => False end) by (vm_compute; exact I).
  destruct (checked_context (int_num i64 true) no_libm no_random true std_env true plain_config) as [d| |] eqn:H; try contradiction. clear X.
  exists d. split; [reflexivity|]. split; [exact (AC_checked Z _ _ _ _ _ _ _ d H)|]. do 5 (split; [reflexivity|]).
  apply checked_inv in H. destruct H as (p & e & Hp & He & ->). vm_compute. reflexivity.
Qed.
