(** * Specification: expression trees, their text as tokens, their meaning, and the reading rules

    This file does not mention the evaluator. It says what an expression is ([expr]), which tokens it is written
    with ([print]), what it means ([denote]), and which trees respect the precedence rules ([wf]). *)
From Coq Require Import List NArith Bool.
From Verif Require Import ModelBase ModelContext.
Import ListNotations.

Inductive expr (V : Type) :=
| ENum (v : V)                                        (* 3 *)
| EVar (x : str)                                      (* x *)
| EConst (x : str)                                    (* PI *)
| EGroup (g : grouping) (e : expr V)                  (* (e) [e] {e} *)
| ECall (f : str) (g : grouping) (args : list (expr V)) (* f(e1, ..., en) *)
| EPre (u : str) (e : expr V)                         (* -e *)
| EPost (e : expr V) (u : str)                        (* e! *)
| EBin (o : str) (l r : expr V)                       (* l o r *)
| EMul (l r : expr V).                                (* l r, an implied multiplication *)
Arguments ENum {V} v. Arguments EVar {V} x. Arguments EConst {V} x. Arguments EGroup {V} g e.
Arguments ECall {V} f g args. Arguments EPre {V} u e. Arguments EPost {V} e u.
Arguments EBin {V} o l r. Arguments EMul {V} l r.

(** An induction principle that reaches the arguments of calls. *)
Lemma expr_ind' : forall (V : Type) (P : expr V -> Prop),
  (forall v, P (ENum v)) -> (forall x, P (EVar x)) -> (forall x, P (EConst x)) ->
  (forall g e, P e -> P (EGroup g e)) ->
  (forall f g args, Forall P args -> P (ECall f g args)) ->
  (forall u e, P e -> P (EPre u e)) -> (forall e u, P e -> P (EPost e u)) ->
  (forall o l r, P l -> P r -> P (EBin o l r)) -> (forall l r, P l -> P r -> P (EMul l r)) ->
  forall e, P e.
Proof.
  intros V P H1 H2 H3 H4 H5 H6 H7 H8 H9. fix IH 1. intros [v|x|x|g e|f g args|u e|e u|o l r|l r].
  - apply H1. - apply H2. - apply H3. - apply H4, IH.
  - apply H5. induction args as [|a args IHa]; constructor; [apply IH | exact IHa].
  - apply H6, IH. - apply H7, IH. - apply H8; apply IH. - apply H9; apply IH.
Qed.

(** [join sep [l1; ...; ln]] is [l1 sep l2 sep ... sep ln]. *)
Fixpoint join {A} (sep : list A) (ls : list (list A)) : list A :=
  match ls with
  | [] => []
  | [l] => l
  | l :: ls' => l ++ sep ++ join sep ls'
  end.

Definition times : str := [42%N].   (* "*" *)

Section Expr.
Context {V W : Type}.
Notation tok := (token V).

(** The tokens an expression is written with. *)
Fixpoint print (e : expr V) : list tok :=
  match e with
  | ENum v => [TNumber v]
  | EVar x => [TVariable x]
  | EConst x => [TConstant x]
  | EGroup g e => [TOpen (grouping_open g)] ++ print e ++ [TClose (grouping_close g)]
  | ECall f g args =>
      [TFunction f; TOpen (grouping_open g)] ++ join [TComma] (map print args) ++ [TClose (grouping_close g)]
  | EPre u e => [TUnary u] ++ print e
  | EPost e u => print e ++ [TUnary u]
  | EBin o l r => print l ++ [TBinary o] ++ print r
  | EMul l r => print l ++ print r
  end.

(** Its postfix form. *)
Fixpoint postfix (e : expr V) : list tok :=
  match e with
  | ENum v => [TNumber v]
  | EVar x => [TVariable x]
  | EConst x => [TConstant x]
  | EGroup _ e => postfix e
  | ECall f _ args => concat (map postfix args) ++ [TArgCount (length args); TFunction f]
  | EPre u e => postfix e ++ [TUnary u]
  | EPost e u => postfix e ++ [TUnary u]
  | EBin o l r => postfix l ++ postfix r ++ [TBinary o]
  | EMul l r => postfix l ++ postfix r ++ [TBinary times]
  end.

Variable c : ctx V W.

(** Its meaning: operands from left to right, then the operation; the first failure is the result. *)
Definition apply_unary (u : str) (v : V) : M W V :=
  match get_unary c u with Some f => uf_call f v | None => fail InvalidInput end.
Definition apply_binary (o : str) (x y : V) : M W V :=
  match get_binary c o with Some f => bf_call f x y | None => fail InvalidInput end.
Definition apply_function (f : str) (vs : list V) : M W V :=
  match get_function c f with Some fn => fn_call fn vs | None => fail InvalidInput end.
Definition value_of (o : option V) : M W V :=
  match o with Some v => ret v | None => fail InvalidInput end.

(** [sequence [m1; ...; mn]] runs the computations from left to right and returns all their values. *)
Fixpoint sequence {A} (ms : list (M W A)) : M W (list A) :=
  match ms with
  | [] => ret []
  | m :: ms' => bind m (fun v => bind (sequence ms') (fun vs => ret (v :: vs)))
  end.

Fixpoint denote (e : expr V) : M W V :=
  match e with
  | ENum v => ret v
  | EVar x => value_of (get_variable c x)
  | EConst x => value_of (get_constant c x)
  | EGroup _ e => denote e
  | ECall f _ args => bind (sequence (map denote args)) (apply_function f)
  | EPre u e => bind (denote e) (apply_unary u)
  | EPost e u => bind (denote e) (apply_unary u)
  | EBin o l r => bind (denote l) (fun x => bind (denote r) (fun y => apply_binary o x y))
  | EMul l r => bind (denote l) (fun x => bind (denote r) (fun y => apply_binary times x y))
  end.

(** ** Reading rules *)

(** In [a o1 b o2 d], the left operator [o1] takes [b]: the reading is [(a o1 b) o2 d]. It does so if it binds
    tighter, or as tight while being left-associative. *)
Definition groups_left (o1 o2 : str) : Prop :=
  exists f1 f2, get_binary c o1 = Some f1 /\ get_binary c o2 = Some f2 /\
    ((bf_prec f2 < bf_prec f1)%N \/ (bf_prec f1 = bf_prec f2 /\ bf_assoc f1 = LeftA)).

Definition is_atom (e : expr V) : bool :=
  match e with ENum _ | EVar _ | EConst _ => true | _ => false end.

Definition atom_token (t : tok) : bool :=
  match t with TNumber _ | TVariable _ | TConstant _ => true | _ => false end.

Definition starts_with_atom (e : expr V) : bool :=
  match print e with t :: _ => atom_token t | [] => false end.

(** The binary operators met going down the left (right) edge of a tree: those that compete with an operator
    written to its left (right). *)
Fixpoint left_ops (e : expr V) : list str :=
  match e with EBin o l _ => left_ops l ++ [o] | _ => [] end.
Fixpoint right_ops (e : expr V) : list str :=
  match e with
  | EBin o _ r => right_ops r ++ [o]
  | EMul _ r => right_ops r ++ [times]
  | _ => []
  end.

(** The tree ends in a prefix operator applied to something other than an atom: such a prefix operator takes
    everything up to the end of its group, argument or expression. *)
Fixpoint ends_in_prefix (e : expr V) : bool :=
  match e with
  | EPre _ e => negb (is_atom e)
  | EBin _ _ r => ends_in_prefix r
  | EMul _ r => ends_in_prefix r
  | _ => false
  end.

(** What a postfix operator can follow. *)
Definition is_primary (e : expr V) : bool :=
  match e with
  | ENum _ | EVar _ | EConst _ | EGroup _ _ | ECall _ _ _ | EPost _ _ => true
  | EPre _ e => is_atom e
  | EBin _ _ _ | EMul _ _ => false
  end.

(** Juxtapositions that multiply: a number before a function, constant, variable or open group; a closed group or
    call before a number, variable, constant, function or open group. *)
Definition juxtaposed (l r : expr V) : bool :=
  match l, print r with
  | (ENum _ | EPre _ (ENum _)), (TFunction _ | TConstant _ | TVariable _ | TOpen _) :: _ => true
  | (EGroup _ _ | ECall _ _ _), (TNumber _ | TVariable _ | TConstant _ | TFunction _ | TOpen _) :: _ => true
  | _, _ => false
  end.

Definition has_notation (u : str) (n : notation) : Prop :=
  exists f, get_unary c u = Some f /\ uf_notation f = n.

(** The trees that respect the reading rules. *)
Fixpoint wf (e : expr V) : Prop :=
  match e with
  | ENum _ | EVar _ | EConst _ => True
  | EGroup _ e => wf e
  | ECall _ g args =>
      args <> [] /\ (custom_function_call (cfg c) = false -> g = Parenthesis)
      /\ (fix all_wf es := match es with [] => True | e :: es' => wf e /\ all_wf es' end) args
  | EPre u e => wf e /\ has_notation u Prefix /\ (is_atom e = true \/ starts_with_atom e = false)
  | EPost e u => wf e /\ has_notation u Postfix /\ is_primary e = true
  | EBin o l r =>
      wf l /\ wf r /\ get_binary c o <> None
      /\ ends_in_prefix l = false
      /\ (forall o', In o' (right_ops l) -> groups_left o' o)
      /\ (forall o', In o' (left_ops r) -> ~ groups_left o o')
  | EMul l r =>
      wf l /\ wf r /\ implicit_mul (cfg c) = true
      /\ juxtaposed l r = true
      /\ (forall o', In o' (left_ops r) -> ~ groups_left times o')
  end.

End Expr.
