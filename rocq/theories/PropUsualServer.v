(** * C111 for requests: bytes of requests whose expressions are allowed by the usual rules

    Vocabulary: SpecUsualTree (the rules; the server multiplies implicitly and calls with parentheses only), SpecJson, SpecServer; PropBytes.answered: the bytes of the answer. *)
From Coq Require Import List NArith ZArith QArith Bool Arith Lia String.
From Verif Require Import ModelBase ModelContext ModelEvaluator ModelText ModelSplit ModelTokenizer ModelDefault ModelFloat ModelNum ModelOps ModelParse ModelComplex ModelStd ModelServer
  SpecExpr SpecText SpecLex SpecParse SpecTokenizer SpecRepl SpecServer SpecUsualTree.
From Verif Require Import ModelJson SpecJson.
From Verif Require PropLex PropUsualTree PropBytes PropComplexCalc SpecDecCalc SpecDecimal SpecDoubleCalc SpecComplexCalc SpecComplexText PropCalculator ProofDecRef ProofTok2.
Import ListNotations.
Local Open Scope string_scope.
Local Open Scope list_scope.

(** Complex numbers have no factorials. *)
Definition factorials (ty : number_type) : bool := match ty with NComplex => false | _ => true end.
Lemma served_arithmetic : forall D W (sv : service D W) E dbg ty V (k : kind V W) d, serves sv E dbg ty V k -> ty <> NBinary -> k_context k (server_settings ty) = Ok d ->
  PropUsualTree.arithmetic V E d (server_settings ty) (factorials ty).
Proof.
  intros D W sv E dbg ty V k d S N H. destruct S; cbn [k_context decimal_kind float_kind integer_kind complex_kind factorials] in *.
  - exact (PropUsualTree.A_decimal D _ _ _ E dbg _ d H).
  - exact (PropUsualTree.A_checked f64 _ _ _ _ E dbg _ d H).
  - exact (PropUsualTree.A_checked Z _ _ _ _ E dbg _ d H).
  - exact (PropUsualTree.A_complex _ _ E dbg _ d H).
  - exfalso. apply N. reflexivity.
Qed.

(** Decimal, float, integer and complex requests: an expression allowed by the rules is answered with what its tree says. *)
Theorem C111_requests : forall D W (sv : service D W) E dbg number otherwise say a j t rest q query ps ty V (k : kind V W), white a -> SpecJson.value_text j t -> ends j rest -> unicode_string (a ++ t ++ rest) ->
  request_of number j q -> query_is query ps -> (forall m, unicode_string (say m)) -> asked q = ty -> ty <> NBinary -> serves sv E dbg ty V k ->
  exists d, k_context k (server_settings ty) = Ok d /\ (Forall (accepted sv E dbg (k_read k) d) (given q) -> forall w,
  exists d', with_variables sv E (k_read k) d (given q) d' /\
  forall e, ascii_operators e -> usual true false (factorials ty) e -> text_of (to_ctx E d') (k_parse k) e (q_expression q) ->
  PropBytes.answered sv E dbg number otherwise say (utf8 (a ++ t ++ rest)) query ps (k_show k) (denote (to_ctx E d') e w) w).
Proof.
  intros D W sv E dbg number otherwise say a j t rest q query ps ty V k A T R U Q P Um Ty N S.
  destruct (PropBytes.C106_every_type D W sv E dbg number otherwise say a j t rest q query ps ty V k A T R U Q P Um Ty S) as (d & Hd & _ & H). exists d. split; [exact Hd|].
  intros F w. destruct (proj1 (H w) F) as (d' & Hd' & An). exists d'. split; [exact Hd'|]. intros e Ae Ue Te.
  rewrite <- (PropUsualTree.C111_text V W E d d' (server_settings ty) (factorials ty) (served_arithmetic D W sv E dbg ty V k d S N Hd) (proj1 Hd') dbg (k_parse k) e (q_expression q) w Ae Ue Te).
  replace PropLex.dsplitter with (split_into_tokens (k_rules k)); [exact An|]. destruct S; try reflexivity. exfalso. apply N. reflexivity.
Qed.
Print Assumptions C111_requests.

(** With the calculators of C96, C105 and C107. *)
Theorem C111_decimal_requests : forall D W (sv : service D W) value E dbg number otherwise say a j t rest q query ps, SpecDecimal.exact_decimals (s_dlib sv) value -> (64 <= s_fuel sv)%nat ->
  white a -> SpecJson.value_text j t -> ends j rest -> unicode_string (a ++ t ++ rest) -> request_of number j q -> query_is query ps -> (forall m, unicode_string (say m)) -> q_type q = None \/ q_type q = Some NDecimal ->
  exists d, decimals sv E dbg (server_settings NDecimal) = Ok d /\ (Forall (accepted sv E dbg (s_read_decimal sv) d) (given q) -> forall w,
  exists d', with_variables sv E (s_read_decimal sv) d (given q) d' /\
  forall vars e r, (forall x, vars x = option_map value (get_variable (to_ctx E d') x)) -> ascii_operators e -> usual true false true e -> text_of (to_ctx E d') (s_read_decimal sv) e (q_expression q) ->
  SpecDecCalc.decimal value vars e = Some r ->
  exists z, SpecDecCalc.agrees value z r /\ PropBytes.answered sv E dbg number otherwise say (utf8 (a ++ t ++ rest)) query ps (s_show_decimal sv) (z, w) w).
Proof.
  intros D W sv value E dbg number otherwise say a j t rest q query ps EX Hf A T R U Q P Um Hq.
  destruct (PropBytes.C106_decimals D W sv value E dbg number otherwise say a j t rest q query ps EX Hf A T R U Q P Um Hq) as (d & Hd & H). exists d. split; [exact Hd|].
  intros F w. destruct (H F w) as (d' & Hd' & X). exists d'. split; [exact Hd'|]. intros vars e r Hv Ae Ue Te Hr. apply (X vars e r Hv); try assumption.
  exact (proj2 (PropUsualTree.C111_trees D W E d d' _ true (PropUsualTree.A_decimal D _ _ _ E dbg _ d Hd) (proj1 Hd') e Ae) Ue).
Qed.
Print Assumptions C111_decimal_requests.
Theorem C111_float_requests : forall D W (sv : service D W) E dbg number otherwise say a j t rest q query ps,
  white a -> SpecJson.value_text j t -> ends j rest -> unicode_string (a ++ t ++ rest) -> request_of number j q -> query_is query ps -> (forall m, unicode_string (say m)) -> q_type q = Some NFloat ->
  exists d, checked_floats sv E dbg (server_settings NFloat) = Ok d /\ (Forall (accepted sv E dbg (s_read_f64 sv) d) (given q) -> forall w,
  exists d', with_variables sv E (s_read_f64 sv) d (given q) d' /\
  forall e, SpecDoubleCalc.known true (s_docs sv) e -> ascii_operators e -> usual true false true e -> text_of (to_ctx E d') (s_read_f64 sv) e (q_expression q) ->
  exists r, SpecDoubleCalc.worth (s_libm sv) (get_variable (to_ctx E d')) (s_float_fuel sv) true (s_docs sv) e r /\
    PropBytes.answered sv E dbg number otherwise say (utf8 (a ++ t ++ rest)) query ps (s_show_f64 sv) (r, w) w).
Proof.
  intros D W sv E dbg number otherwise say a j t rest q query ps A T R U Q P Um Hq.
  destruct (PropBytes.C106_floats D W sv E dbg number otherwise say a j t rest q query ps A T R U Q P Um Hq) as (d & Hd & H). exists d. split; [exact Hd|].
  intros F w. destruct (H F w) as (d' & Hd' & X). exists d'. split; [exact Hd'|]. intros e K Ae Ue Te. apply (X e K); try assumption.
  exact (proj2 (PropUsualTree.C111_trees f64 W E d d' _ true (PropUsualTree.A_checked f64 _ _ _ _ E dbg _ d Hd) (proj1 Hd') e Ae) Ue).
Qed.
Print Assumptions C111_float_requests.
Theorem C111_complex_requests : forall D W (sv : service D W) E dbg number otherwise say a j t rest q query ps,
  white a -> SpecJson.value_text j t -> ends j rest -> unicode_string (a ++ t ++ rest) -> request_of number j q -> query_is query ps -> (forall m, unicode_string (say m)) -> q_type q = Some NComplex ->
  exists d, complexes sv E dbg (server_settings NComplex) = Ok d /\ (Forall (accepted sv E dbg (s_read_complex sv) d) (given q) -> forall w,
  exists d', with_variables sv E (s_read_complex sv) d (given q) d' /\
  forall e, SpecComplexCalc.complex_known e -> ascii_operators e -> usual true false false e -> SpecComplexText.complex_text_of (to_ctx E d') (s_read_complex sv) e (q_expression q) ->
  exists r, SpecComplexCalc.complex_worth (s_clib sv) (get_variable (to_ctx E d')) e r /\
    PropBytes.answered sv E dbg number otherwise say (utf8 (a ++ t ++ rest)) query ps (s_show_complex sv) (r, w) w).
Proof.
  intros D W sv E dbg number otherwise say a j t rest q query ps A T R U Q P Um Hq.
  destruct (PropComplexCalc.C107_bytes D W sv E dbg number otherwise say a j t rest q query ps A T R U Q P Um Hq) as (d & Hd & H). exists d. split; [exact Hd|].
  intros F w. destruct (H F w) as (d' & Hd' & X). exists d'. split; [exact Hd'|]. intros e K Ae Ue Te. apply (X e K); try assumption.
  exact (proj2 (PropUsualTree.C111_trees c64 W E d d' _ false (PropUsualTree.A_complex _ _ E dbg _ d Hd) (proj1 Hd') e Ae) Ue).
Qed.
Print Assumptions C111_complex_requests.

(** ** Case: the tree of C111_case, in an integer request. *)
Definition integer_body : string := "{""type"":""integer"",""expression"":""2(x + 3)^2 ^ 2 - 4 Mod 3!"",""variables"":{""x"":""2""}}".
Definition integer_context : dctx Z unit := let d := unres (integers PropBytes.by_service std_env true (server_settings NInteger)) (server_settings NInteger) in
  snd (set_variable std_env true (lit "x") 2%Z d).
Example C111_requests_case : usual true false (factorials NInteger) PropUsualTree.tree /\ ascii_operators PropUsualTree.tree /\
  text_of (to_ctx std_env integer_context) (parse_int i128) PropUsualTree.tree (lit "2(x + 3)^2 ^ 2 - 4 Mod 3!") /\ fst (denote (to_ctx std_env integer_context) PropUsualTree.tree tt) = Ok 1246%Z /\
  PropBytes.by_post integer_body = Ok (200%N, utf8 (lit "{""result"":""1246"",""error"":null}")).
Proof.
  destruct PropUsualTree.C111_case as (A & B & _). split; [exact A|]. split; [exact B|]. split; [apply (ProofTok2.text_sound Z.eqb (fun x y => proj1 (Z.eqb_eq x y))); vm_compute; reflexivity|]. split; vm_compute; reflexivity.
Qed.
