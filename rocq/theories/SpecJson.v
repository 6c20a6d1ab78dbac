(** * Specification: JSON texts (RFC 8259), requests, query strings *)
From Coq Require Import List NArith ZArith Bool Arith String.
From Verif Require Import ModelBase ModelText ModelFloat.
From Verif Require Import ModelServer.
From Verif Require Import ModelJson SpecText SpecLex SpecParse.
Import ListNotations.
Local Open Scope N_scope.

(** ** JSON texts *)
Definition white (s : str) : Prop := Forall (fun c => In c [32; 9; 10; 13]) s.
(** A hexadecimal digit and its value. *)
Inductive hex : char -> N -> Prop :=
| hex_num : forall n, n < 10 -> hex (48 + n) n
| hex_lower : forall n, 10 <= n < 16 -> hex (87 + n) n
| hex_upper : forall n, 10 <= n < 16 -> hex (55 + n) n.
Inductive four_hex : str -> N -> Prop :=
| four : forall a b c d w x y z, hex a w -> hex b x -> hex c y -> hex d z -> four_hex [a; b; c; d] (w * 4096 + x * 256 + y * 16 + z).
Definition escapes : list (char * char) := [(34, 34); (92, 92); (47, 47); (98, 8); (102, 12); (110, 10); (114, 13); (116, 9)].
(** [string_text s t]: the text [t], up to and including the closing quote, stands for [s]. *)
Inductive string_text : str -> str -> Prop :=
| s_end : string_text [] [34]
| s_plain : forall c s t, 32 <= c -> c <> 34 -> c <> 92 -> string_text s t -> string_text (c :: s) (c :: t)
| s_short : forall e c s t, In (e, c) escapes -> string_text s t -> string_text (c :: s) (92 :: e :: t)
| s_code : forall h u s t, four_hex h u -> ~ (55296 <= u <= 57343) -> string_text s t -> string_text (u :: s) (92 :: 117 :: h ++ t)
| s_pair : forall h u k l s t, four_hex h u -> four_hex k l -> 55296 <= u <= 56319 -> 56320 <= l <= 57343 -> string_text s t ->
    string_text (65536 + (u - 55296) * 1024 + (l - 56320) :: s) (92 :: 117 :: h ++ 92 :: 117 :: k ++ t).
Definition some_digits (s : str) : Prop := s <> [] /\ Forall digit s.
Inductive number_text : str -> Prop :=
| n_text : forall sign i f e, sign = [] \/ sign = [45] -> (i = [48] \/ exists c t, i = c :: t /\ 49 <= c <= 57 /\ Forall digit t) ->
    (f = [] \/ exists d, f = 46 :: d /\ some_digits d) ->
    (e = [] \/ exists x g d, e = x :: g ++ d /\ (x = 101 \/ x = 69) /\ (g = [] \/ g = [43] \/ g = [45]) /\ some_digits d) ->
    number_text (sign ++ i ++ f ++ e).
Inductive value_text : json -> str -> Prop :=
| t_null : value_text JNull (lit "null")
| t_true : value_text (JBool true) (lit "true")
| t_false : value_text (JBool false) (lit "false")
| t_number : forall s, number_text s -> value_text (JNumber s) s
| t_string : forall s t, string_text s t -> value_text (JString s) (34 :: t)
| t_no_elements : forall w, white w -> value_text (JArray []) (91 :: w ++ [93])
| t_array : forall l t, elements_text l t -> value_text (JArray l) (91 :: t ++ [93])
| t_no_members : forall w, white w -> value_text (JObject []) (123 :: w ++ [125])
| t_object : forall l t, members_text l t -> value_text (JObject l) (123 :: t ++ [125])
with elements_text : list json -> str -> Prop :=
| t_element : forall j a t b, white a -> value_text j t -> white b -> elements_text [j] (a ++ t ++ b)
| t_elements : forall j a t b l u, white a -> value_text j t -> white b -> elements_text l u -> elements_text (j :: l) (a ++ t ++ b ++ 44 :: u)
with members_text : list (str * json) -> str -> Prop :=
| t_member : forall a k q b c j t d, white a -> string_text k q -> white b -> white c -> value_text j t -> white d ->
    members_text [(k, j)] (a ++ 34 :: q ++ b ++ 58 :: c ++ t ++ d)
| t_members : forall a k q b c j t d l u, white a -> string_text k q -> white b -> white c -> value_text j t -> white d -> members_text l u ->
    members_text ((k, j) :: l) (a ++ 34 :: q ++ b ++ 58 :: c ++ t ++ d ++ 44 :: u).

(** What follows does not continue the value (only a number can be continued). *)
Definition num_stop (s : str) : Prop := match s with c :: _ => ~ digit c /\ c <> 46 /\ c <> 101 /\ c <> 69 | [] => True end.
Definition ends (j : json) (rest : str) : Prop := match j with JNumber _ => num_stop rest | _ => True end.

(** ** Requests *)
Section Requests.
Variable number : str -> option f64.
Inductive variable_of : json -> variable -> Prop :=
| v_string : forall s, variable_of (JString s) (VString s)
| v_number : forall t x, number t = Some x -> variable_of (JNumber t) (VNumber x).
Definition type_names : list (number_type * string) := [(NDecimal, "decimal"); (NFloat, "float"); (NComplex, "complex"); (NInteger, "integer"); (NBinary, "binary")]%string.
Inductive type_of : json -> option number_type -> Prop :=
| y_null : type_of JNull None
| y_name : forall t n, In (t, n) type_names -> type_of (JString (lit n)) (Some t)
| y_object : forall t n, In (t, n) type_names -> type_of (JObject [(lit n, JNull)]) (Some t).
(** The last member of a name. *)
Definition last_member (l : list (str * json)) (k : str) (j : json) : Prop := exists a b, l = a ++ (k, j) :: b /\ ~ In k (map fst b).
Inductive variables_of : json -> option (list (str * variable)) -> Prop :=
| vs_null : variables_of JNull None
| vs_object : forall l m, NoDup (map fst m) -> (forall k j, In (k, j) l -> exists v, variable_of j v) ->
    (forall k v, In (k, v) m <-> exists j, last_member l k j /\ variable_of j v) -> variables_of (JObject l) (Some m).
(** A field is absent or given exactly once. *)
Definition absent (l : list (str * json)) (k : string) : Prop := ~ In (lit k) (map fst l).
Definition only (l : list (str * json)) (k : string) (j : json) : Prop := exists a b, l = a ++ (lit k, j) :: b /\ ~ In (lit k) (map fst a) /\ ~ In (lit k) (map fst b).
(** The requests: objects with an expression and perhaps a type and variables, or arrays of the three; whatever else an object has. *)
Inductive request_of : json -> request -> Prop :=
| r_object : forall l e t v, only l "expression" (JString e) ->
    (absent l "type" /\ t = None \/ exists j, only l "type" j /\ type_of j t) ->
    (absent l "variables" /\ v = None \/ exists j, only l "variables" j /\ variables_of j v) -> request_of (JObject l) (Request e t v)
| r_array : forall e j t k v, type_of j t -> variables_of k v -> request_of (JArray [JString e; j; k]) (Request e t v).
(** Requests that differ at most in the order of their variables. *)
Definition same_request (q r : request) : Prop := q_expression q = q_expression r /\ q_type q = q_type r /\
  match q_variables q, q_variables r with
  | None, None => True | Some m, Some n => NoDup (map fst m) /\ NoDup (map fst n) /\ forall p, In p m <-> In p n | _, _ => False end.
(** The value of a field of a request. *)
Definition good_field (k : str) (j : json) : Prop :=
  (k = lit "expression" -> exists e, j = JString e) /\ (k = lit "type" -> exists t, type_of j t) /\ (k = lit "variables" -> exists v, variables_of j v).
Definition field (k : str) : Prop := k = lit "expression" \/ k = lit "type" \/ k = lit "variables".
(** These members are in order so far: each field of a request at most once and with a value it can have. *)
Definition times (l : list (str * json)) (k : str) : nat := count_occ (list_eq_dec N.eq_dec) (map fst l) k.
Definition fine (l : list (str * json)) : Prop := (forall k j, In (k, j) l -> good_field k j) /\ forall k, field k -> (times l k <= 1)%nat.
End Requests.
(** A value inside a value, and the way there. *)
Inductive leads : path -> json -> json -> Prop :=
| l_here : forall j, leads [] j j
| l_member : forall k x l p y, In (k, x) l -> leads p x y -> leads (Key k :: p) (JObject l) y
| l_element : forall i x l p y, nth_error l i = Some x -> leads p x y -> leads (Index i :: p) (JArray l) y.
Definition compound (j : json) : Prop := (exists l, j = JArray l) \/ exists l, j = JObject l.
(** What cannot be read even where the value does not matter: a number out of range; an array or object as the 128th around each other
    (125 inside the value of a variable). *)
Definition unreadable (number : str -> option f64) (p : path) (j : json) : Prop :=
  exists x, leads p j x /\ ((exists t, x = JNumber t /\ number t = None) \/ (compound x /\ List.length p = 125%nat)).

(** What a value of a field that it cannot have is told with: the path from the field on. *)
Inductive wrong_at (number : str -> option f64) : str -> json -> path -> Prop :=
| w_expression : forall j, (forall s, j <> JString s) -> wrong_at number (lit "expression") j []
| w_variant : forall k v l t, type_of (JString k) (Some t) -> v <> JNull -> wrong_at number (lit "type") (JObject ((k, v) :: l)) [Key k]
| w_type : forall j, (forall t, ~ type_of j t) -> (forall k v l t, j = JObject ((k, v) :: l) -> type_of (JString k) (Some t) -> v = JNull) -> wrong_at number (lit "type") j []
| w_variables : forall j, j <> JNull -> (forall l, j <> JObject l) -> wrong_at number (lit "variables") j []
| w_variable : forall a n j b p, (forall n j, In (n, j) a -> exists v, variable_of number j v) -> (forall v, ~ variable_of number j v) ->
    (unreadable number p j \/ p = [] /\ forall q, ~ unreadable number q j) -> wrong_at number (lit "variables") (JObject (a ++ (n, j) :: b)) (Key n :: p).
(** How a path is written: keys after a dot (but the first), indices in brackets, in decimal. *)
Inductive segment_text : segment -> str -> Prop :=
| g_key : forall k, segment_text (Key k) (46 :: k)
| g_index : forall i d, digits 10%Z d (BinInt.Z.of_nat i) -> d <> [] -> segment_text (Index i) (91 :: d ++ [93]).
Inductive path_text : path -> str -> Prop :=
| p_first_key : forall k, path_text [Key k] k
| p_first_index : forall i s, segment_text (Index i) s -> path_text [Index i] s
| p_more : forall p s g t, path_text p s -> segment_text g t -> path_text (p ++ [g]) (s ++ t).
(** What the user is told. *)
Inductive told_at : path -> str -> Prop :=
| told_json : told_at [] (lit "Invalid json")
| told_path : forall p s, path_text p s -> told_at p (lit "Invalid value type at path: " ++ s).
(** These bytes are this value's, in UTF-8. *)
Definition bytes_of (j : json) (b : list N) : Prop := exists s, unicode_string s /\ b = utf8 s /\ value_text j s.
(** The numbers and the strings of a value can be written. *)
Definition writable (j : json) : Prop :=
  (forall p t, leads p j (JNumber t) -> number_text t) /\ (forall p s, leads p j (JString s) -> unicode_string s) /\
  forall p l k x, leads p j (JObject l) -> In (k, x) l -> unicode_string k.

(** ** Query strings *)
Inductive decodes : list N -> list N -> Prop :=
| d_end : decodes [] []
| d_plus : forall s t, decodes s t -> decodes (43 :: s) (32 :: t)
| d_byte : forall a b x y s t, hex a x -> hex b y -> decodes s t -> decodes (37 :: a :: b :: s) (x * 16 + y :: t)
| d_percent : forall s t, ~ (exists a b x y r, s = a :: b :: r /\ hex a x /\ hex b y) -> decodes s t -> decodes (37 :: s) (37 :: t)
| d_other : forall c s t, c <> 43 -> c <> 37 -> decodes s t -> decodes (c :: s) (c :: t).
(** A part of a query: a name and a value, the value being empty without an equals sign. *)
Inductive part_is : list N -> list N * list N -> Prop :=
| p_value : forall k v k' v', ~ In 61 k -> decodes k k' -> decodes v v' -> part_is (k ++ 61 :: v) (k', v')
| p_name : forall k k', ~ In 61 k -> decodes k k' -> part_is k (k', []).
(** The parts of a query: what is between ampersands; empty parts do not count. *)
Inductive query_is : list N -> list (list N * list N) -> Prop :=
| q_end : query_is [] []
| q_amp : forall s ps, query_is s ps -> query_is (38 :: s) ps
| q_last : forall p kv, p <> [] -> ~ In 38 p -> part_is p kv -> query_is p [kv]
| q_part : forall p kv s ps, p <> [] -> ~ In 38 p -> part_is p kv -> query_is s ps -> query_is (p ++ 38 :: s) (kv :: ps).
(** A name occurs once, with this value. *)
Definition once (ps : list (list N * list N)) (k : string) (v : list N) : Prop := exists a b, ps = a ++ (lit k, v) :: b /\ ~ In (lit k) (map fst a) /\ ~ In (lit k) (map fst b).
