(** * Specification: evaluation step by step

    [runs c e w r w']: evaluating the tree [e] in the world [w] ends with the result [r] in the world [w'].
    Operands are evaluated from left to right before their operation; the first failure is the result and nothing
    is evaluated after it. *)
From Coq Require Import List NArith Bool.
From Verif Require Import ModelBase ModelContext SpecExpr.
Import ListNotations.

Section Run.
Context {V W : Type}.
Variable c : ctx V W.

(** The failure [f] (an error kind, or a panic for [None]) as a result. *)
Definition failure {A} (f : option errkind) : res A := match f with Some k => Err k | None => Panic end.

Inductive runs : expr V -> W -> res V -> W -> Prop :=
| R_num : forall v w, runs (ENum v) w (Ok v) w
| R_var : forall x v w, get_variable c x = Some v -> runs (EVar x) w (Ok v) w
| R_var_none : forall x w, get_variable c x = None -> runs (EVar x) w (Err InvalidInput) w
| R_const : forall x v w, get_constant c x = Some v -> runs (EConst x) w (Ok v) w
| R_const_none : forall x w, get_constant c x = None -> runs (EConst x) w (Err InvalidInput) w
| R_group : forall g e w r w', runs e w r w' -> runs (EGroup g e) w r w'
| R_call : forall f g args w vs w1 fn r w2,
    runs_all args w (Ok vs) w1 -> get_function c f = Some fn -> fn_call fn vs w1 = (r, w2) ->
    runs (ECall f g args) w r w2
| R_call_none : forall f g args w vs w1,
    runs_all args w (Ok vs) w1 -> get_function c f = None -> runs (ECall f g args) w (Err InvalidInput) w1
| R_call_fail : forall f g args w k w1,
    runs_all args w (failure k) w1 -> runs (ECall f g args) w (failure k) w1
| R_pre : forall u e w v w1 fn r w2,
    runs e w (Ok v) w1 -> get_unary c u = Some fn -> uf_call fn v w1 = (r, w2) -> runs (EPre u e) w r w2
| R_pre_none : forall u e w v w1,
    runs e w (Ok v) w1 -> get_unary c u = None -> runs (EPre u e) w (Err InvalidInput) w1
| R_pre_fail : forall u e w k w1, runs e w (failure k) w1 -> runs (EPre u e) w (failure k) w1
| R_post : forall u e w v w1 fn r w2,
    runs e w (Ok v) w1 -> get_unary c u = Some fn -> uf_call fn v w1 = (r, w2) -> runs (EPost e u) w r w2
| R_post_none : forall u e w v w1,
    runs e w (Ok v) w1 -> get_unary c u = None -> runs (EPost e u) w (Err InvalidInput) w1
| R_post_fail : forall u e w k w1, runs e w (failure k) w1 -> runs (EPost e u) w (failure k) w1
| R_bin : forall o l r w res w1, runs_op o l r w res w1 -> runs (EBin o l r) w res w1
| R_mul : forall l r w res w1, runs_op times l r w res w1 -> runs (EMul l r) w res w1
with runs_op : str -> expr V -> expr V -> W -> res V -> W -> Prop :=
| RO_call : forall o l r w x w1 y w2 fn res w3,
    runs l w (Ok x) w1 -> runs r w1 (Ok y) w2 -> get_binary c o = Some fn -> bf_call fn x y w2 = (res, w3) ->
    runs_op o l r w res w3
| RO_none : forall o l r w x w1 y w2,
    runs l w (Ok x) w1 -> runs r w1 (Ok y) w2 -> get_binary c o = None -> runs_op o l r w (Err InvalidInput) w2
| RO_left : forall o l r w k w1, runs l w (failure k) w1 -> runs_op o l r w (failure k) w1
| RO_right : forall o l r w x w1 k w2, runs l w (Ok x) w1 -> runs r w1 (failure k) w2 -> runs_op o l r w (failure k) w2
with runs_all : list (expr V) -> W -> res (list V) -> W -> Prop :=
| RA_nil : forall w, runs_all [] w (Ok []) w
| RA_cons : forall e es w v w1 vs w2,
    runs e w (Ok v) w1 -> runs_all es w1 (Ok vs) w2 -> runs_all (e :: es) w (Ok (v :: vs)) w2
| RA_head : forall e es w k w1, runs e w (failure k) w1 -> runs_all (e :: es) w (failure k) w1
| RA_tail : forall e es w v w1 k w2,
    runs e w (Ok v) w1 -> runs_all es w1 (failure k) w2 -> runs_all (e :: es) w (failure k) w2.

Scheme runs_mut := Minimality for runs Sort Prop
  with runs_op_mut := Minimality for runs_op Sort Prop
  with runs_all_mut := Minimality for runs_all Sort Prop.

End Run.
