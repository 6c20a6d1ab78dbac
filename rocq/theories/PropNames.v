(** * C90: what a variable's name captures *)
From Coq Require Import List NArith ZArith Bool Arith Lia String.
From Verif Require Import ModelServer.
From Verif Require Import ModelBase ModelContext ModelEvaluator ModelText ModelDefault ModelFloat ModelNum ModelOps ModelSplit ModelTokenizer ModelParse ModelStd
  SpecExpr SpecText SpecLex SpecTokenizer ProofText ProofDefault ProofSplit ProofLex ProofTok2 ProofRpn PropLex PropContext PropFrame.
From Verif Require PropServer.
Import ListNotations.

(** ** Reading a variable back *)

(** A text that is one word is worth the number it reads as, or else the variable of that name. *)
Theorem C90_one_word : forall V W (E : env) dbg x v (d d' : dctx V W) o, set_variable E dbg x v d = (Ok o, d') -> a_word x ->
  forall parse w, eval (to_ctx E d') parse dsplitter dbg x w = (Ok match parse x with Some u => u | None => v end, w).
Proof.
  intros V W E dbg x v d d' o H A parse w. assert (L : lexes x [x]).
  { rewrite <- (app_nil_r x) at 1. destruct A as [A|[A|[A|A]]]; [apply lexes_number|apply lexes_ident|apply lexes_operator|apply lexes_other]; try exact A; try exact I; constructor. }
  assert (G : get_variable (to_ctx E d') x = Some v).
  { destruct (C20_set_variable V W E dbg x v d _ d' H) as [(k & K & _)|[_ K]]; [discriminate|]. rewrite K, str_eqb_refl. reflexivity. }
  set (e := match parse x with Some u => ENum u | None => EVar x end).
  assert (T : tokenize (to_ctx E d') parse dsplitter x = Ok (print e)).
  { apply C13_words_to_tokens. split; [intros B; pose proof (word_visible x A) as [Ne Vi]; destruct x as [|a x']; [apply Ne; reflexivity|]; inversion Vi; inversion B; subst; congruence|].
    unfold dsplitter. rewrite (lexes_default x [x] L).
    assert (S : exists t, print e = [t] /\ stands_for (to_ctx E d') parse None x (([] : list str) = []) t).
    { unfold e. destruct (parse x) as [u|] eqn:P; cbn [print]; eexists; (split; [reflexivity|]); [apply S_number; exact P|apply S_variable; [exact P|unfold variable; rewrite G; discriminate]]. }
    destruct S as (t & -> & S). apply SS_word; [exact S| | |constructor].
    - intros (_ & _ & K & _). apply K. reflexivity.
    - intros (_ & _ & ws' & K). discriminate K. }
  unfold eval, bind, lift. rewrite T. rewrite (eval_tokens_print (to_ctx E d') dbg e w); [|unfold e; destruct (parse x); exact I].
  unfold e. destruct (parse x); [reflexivity|]. cbn [denote]. rewrite G. reflexivity.
Qed.
Print Assumptions C90_one_word.

(** A name that is not one word is never read: the variable changes no result. *)
Theorem C90_not_a_word : forall V W (E : env) dbg x v (d d' : dctx V W) o, set_variable E dbg x v d = (Ok o, d') -> ~ a_word x ->
  forall parse s w, eval (to_ctx E d') parse dsplitter dbg s w = eval (to_ctx E d) parse dsplitter dbg s w.
Proof.
  intros V W E dbg x v d d' o H A parse s w. apply (C59_unused_variable V W E dbg x v d d' o H). intros I. apply A.
  pose proof (lexes_words s _ (split_lexes s)) as F. rewrite Forall_forall in F. exact (F x I).
Qed.
Print Assumptions C90_not_a_word.

Lemma lexes_blank : forall s ws, lexes s ws -> blank s -> ws = [].
Proof.
  intros s ws L B. assert (K : lexes s []) by (clear L; induction B; constructor; assumption).
  rewrite <- (lexes_split s _ L). exact (lexes_split s _ K).
Qed.

(** ** Shadowing *)

(** The word [x] in this token: as the name of a function or operator, a bracket, or a comma. *)
Definition uses {V} (x : str) (t : token V) : Prop :=
  match t with
  | TConstant y | TFunction y | TBinary y | TUnary y | TUnknown y => y = x
  | TOpen k | TClose k => [k] = x
  | TComma => lit "," = x
  | _ => False
  end.
(** A word that names a variable and does not read as a number is that variable wherever it stands: whatever function, operator,
    bracket or comma it is without the variable cannot be written any more. *)
Theorem C90_shadows : forall V W (c : ctx V W) parse splitter s ts x, get_variable c x <> None -> parse x = None ->
  tokenize c parse splitter s = Ok ts -> Forall (fun t => ~ uses x t) ts.
Proof.
  intros V W c parse splitter s ts x G P T. apply C13_words_to_tokens in T. destruct T as [_ T].
  assert (K : forall prev y last t, stands_for c parse prev y last t -> ~ uses x t).
  { clear - G P. intros prev y last t S U.
    assert (V1 : y = x -> ~ variable c y -> False) by (intros ->; unfold variable; tauto).
    assert (V2 : y = x -> operator_only c parse y -> False) by (intros A (_ & B & _); exact (V1 A B)).
    assert (V3 : y = x -> nameless c parse y -> False) by (intros A (B & _); exact (V2 A B)).
    destruct S; cbn [uses] in U; try contradiction; first [apply V1; [congruence|assumption]|apply V2; [congruence|assumption]|apply V3; [congruence|assumption]]. }
  induction T as [prev|prev ws ts _ _ IH|prev y ws t ts S _ _ _ IH|prev y ws v ts _ _ _ _ IH]; [constructor|exact IH|constructor; [exact (K _ _ _ _ S)|exact IH]|constructor; [intros []|exact IH]].
Qed.
Print Assumptions C90_shadows.


(** With a variable of that name, [a + b] has no value; whatever binary operator it was. *)
Theorem C90_operator_lost : forall V W (c : ctx V W) parse dbg o s wa wb a b w r w', complex_number (cfg c) = false ->
  get_variable c o <> None -> parse o = None -> parse wa = Some a -> parse wb = Some b -> lexes s [wa; o; wb] ->
  eval c parse dsplitter dbg s w <> (Ok r, w').
Proof.
  intros V W c parse dbg o s wa wb a b w r w' Hc G P Pa Pb L.
  destruct (get_variable c o) as [v|] eqn:Gv; [|contradiction].
  assert (T : tokenize c parse dsplitter s = Ok [TNumber a; TVariable o; TNumber b]).
  { apply C13_words_to_tokens. split.
    - intros B. assert (A : a_word wa) by (pose proof (lexes_words s _ L) as F; inversion F; assumption). destruct (word_visible wa A) as [Ne Vi].
      pose proof (lexes_blank s _ L B) as X. discriminate X.
    - unfold dsplitter. rewrite (lexes_default s _ L).
      assert (Nc : forall p y l, parse y <> None -> ~ cuts c parse p y l) by (intros p y l Hy ((K & _) & _); contradiction).
      assert (Nv : forall p l, ~ cuts c parse p o l) by (intros p l ((_ & K & _) & _); apply K; unfold variable; rewrite Gv; discriminate).
      repeat (apply SS_word; [first [apply S_number; assumption|apply S_variable; [exact P|unfold variable; rewrite Gv; discriminate]]|first [apply Nv|apply Nc; congruence]|intros (K & _); congruence|]). constructor. }
  unfold eval, bind, lift. rewrite T. unfold eval_tokens, infix_to_rpn, bind, lift, ret. cbn [yard_loop yard_step rbind hd_error push_implicit implicit_here].
  unfold push_implicit, implicit_here. destruct (implicit_mul (cfg c)); cbn; rewrite ?Gv; cbn; [|unfold fail; congruence].
  destruct (get_binary c star) as [f|]; [|unfold fail; congruence]. unfold bind, ret. destruct (bf_call f v b w) as [[z|k|] w1]; unfold fail; congruence.
Qed.
Print Assumptions C90_operator_lost.

(** The hypotheses are met, and the server accepts such names: with a variable [+] the request [1 + 2] fails and [2 +] is 10; [max] can
    no longer be called; a variable named [1] is not read; and [a-b] is accepted but can never be read. *)
Example C90_case : a_word (lit "+") /\ a_word (lit "max") /\ a_word (lit "(") /\ ~ a_word (lit "a-b") /\ ~ a_word (lit "2x") /\
  lexes (lit "1 + 2") [lit "1"; lit "+"; lit "2"] /\
  PropServer.reply (PropServer.ask "1 + 2" NInteger [("+", VString (lit "5"))]%string) = Ok (inr (Failure InvalidExpression)) /\
  PropServer.reply (PropServer.ask "2 +" NInteger [("+", VString (lit "5"))]%string) = Ok (inl (lit "10")) /\
  PropServer.reply (PropServer.ask "max(1, 2)" NInteger [("max", VString (lit "5"))]%string) = Ok (inr (Failure InvalidExpression)) /\
  PropServer.reply (PropServer.ask "(1)" NInteger [("(", VString (lit "5"))]%string) = Ok (inr (Failure InvalidExpression)) /\
  PropServer.reply (PropServer.ask "1 + 1" NInteger [("1", VString (lit "5"))]%string) = Ok (inl (lit "2")) /\
  PropServer.reply (PropServer.ask "a-b" NInteger [("a-b", VString (lit "5"))]%string) = Ok (inr (Failure InvalidInput)).
Proof.
  assert (L : forall x, split_into_tokens default_splitter x = [x] -> a_word x) by (intros x H; assert (F : Forall a_word (split_into_tokens default_splitter x)) by exact (lexes_words x _ (split_lexes x)); rewrite H in F; inversion F; assumption).
  assert (N : forall x, split_into_tokens default_splitter x <> [x] -> ~ a_word x).
  { intros x H A. apply H. apply lexes_split. rewrite <- (app_nil_r x) at 1. destruct A as [A|[A|[A|A]]]; [apply lexes_number|apply lexes_ident|apply lexes_operator|apply lexes_other]; try exact A; try exact I; constructor. }
  split; [apply L; reflexivity|]. split; [apply L; reflexivity|]. split; [apply L; reflexivity|]. split; [apply N; discriminate|]. split; [apply N; discriminate|].
  split; [apply C11_maximal_munch; reflexivity|]. repeat split; vm_compute; reflexivity.
Qed.
