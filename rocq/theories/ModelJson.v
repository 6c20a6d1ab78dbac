(** * JSON and query strings, as prexel-server reads and writes them: /repo/prexel-server/src/endpoints/mod.rs, models/mod.rs

    The code derives [Deserialize]/[Serialize] and calls serde_json 1, serde_path_to_error 0.1 and serde_urlencoded (through actix-web 3's
    [Query]): what is modelled here is what those crates are documented to do with these types. A JSON text is read into a tree first;
    serde_json reads it piecewise, which is the same for texts that are JSON. What happens to texts that do not begin with a JSON value in the sense of RFC 8259 with
    paired surrogate escapes is left open. *)
From Coq Require Import List NArith Bool Arith String.
From Verif Require Import ModelBase ModelText ModelSplit ModelFloat.
From Verif Require Import ModelServer.
Import ListNotations.
Local Open Scope N_scope.

(** ** Bytes: [String::from_utf8] (endpoints/mod.rs 21-27) *)

(** Continuation bytes. *)
Definition is_cont (b : N) : bool := between 128 191 b.
(** Strict UTF-8: shortest form, no surrogates, nothing above U+10FFFF. *)
Fixpoint from_utf8 (b : list N) : option str :=
  match b with
  | [] => Some []
  | x :: r =>
      if x <? 128 then option_map (cons x) (from_utf8 r)
      else match r with
      | y :: r =>
          if negb (is_cont y) then None
          else if between 194 223 x then option_map (cons ((x - 192) * 64 + (y - 128))) (from_utf8 r)
          else match r with
          | z :: r =>
              if negb (is_cont z) then None
              else if between 224 239 x then
                let c := (x - 224) * 4096 + (y - 128) * 64 + (z - 128) in
                if (c <? 2048) || between 55296 57343 c then None else option_map (cons c) (from_utf8 r)
              else match r with
              | t :: r =>
                  if negb (is_cont t) then None
                  else if between 240 244 x then
                    let c := (x - 240) * 262144 + (y - 128) * 4096 + (z - 128) * 64 + (t - 128) in
                    if (c <? 65536) || (1114111 <? c) then None else option_map (cons c) (from_utf8 r)
                  else None
              | [] => None
              end
          | [] => None
          end
      | [] => None
      end
  end.

(** ** Reading JSON *)

(** A number is kept as its text. The members of an object are in the order of the text. *)
Inductive json := JNull | JBool (b : bool) | JNumber (text : str) | JString (s : str) | JArray (l : list json) | JObject (l : list (str * json)).

(** Space, tab, line feed, carriage return. *)
Definition json_white (c : char) : bool := (c =? 32) || (c =? 9) || (c =? 10) || (c =? 13).
Definition skip_white (s : str) : str := snd (take_while json_white s).

Definition hex_value (c : char) : option N :=
  if is_digit c then Some (c - 48) else if between 97 102 c then Some (c - 87) else if between 65 70 c then Some (c - 55) else None.
Definition hex4 (a b c d : char) : option N :=
  match hex_value a, hex_value b, hex_value c, hex_value d with
  | Some a, Some b, Some c, Some d => Some (a * 4096 + b * 256 + c * 16 + d)
  | _, _, _, _ => None
  end.
(** The escapes of one letter: quote, backslash, slash, b, f, n, r, t. *)
Definition short_escape (e : char) : option char :=
  if (e =? 34) || (e =? 92) || (e =? 47) then Some e
  else if e =? 98 then Some 8 else if e =? 102 then Some 12 else if e =? 110 then Some 10
  else if e =? 114 then Some 13 else if e =? 116 then Some 9 else None.
Definition push (c : char) (r : option (str * str)) : option (str * str) := match r with Some (t, rest) => Some (c :: t, rest) | None => None end.
(** After the opening quote: the string and what follows the closing quote. *)
Fixpoint read_string (s : str) : option (str * str) :=
  match s with
  | [] => None
  | c :: r =>
      if c =? 34 then Some ([], r)
      else if c =? 92 then
        match r with
        | [] => None
        | e :: r =>
            if e =? 117 then
              match r with
              | h1 :: h2 :: h3 :: h4 :: r =>
                  match hex4 h1 h2 h3 h4 with
                  | None => None
                  | Some u =>
                      if between 55296 56319 u then
                        match r with
                        | b :: v :: k1 :: k2 :: k3 :: k4 :: r =>
                            if (b =? 92) && (v =? 117) then
                              match hex4 k1 k2 k3 k4 with
                              | Some l => if between 56320 57343 l then push (65536 + (u - 55296) * 1024 + (l - 56320)) (read_string r) else None
                              | None => None
                              end
                            else None
                        | _ => None
                        end
                      else if between 56320 57343 u then None else push u (read_string r)
                  end
              | _ => None
              end
            else match short_escape e with Some x => push x (read_string r) | None => None end
        end
      else if c <? 32 then None else push c (read_string r)
  end.

(** A number: optional minus; zero or digits without a leading zero; optional fraction; optional exponent. *)
Definition read_int (s : str) : option (str * str) :=
  match s with
  | c :: r => if c =? 48 then match r with d :: _ => if is_digit d then None else Some ([c], r) | [] => Some ([c], r) end
              else if is_digit c then let (t, r') := take_while is_digit r in Some (c :: t, r') else None
  | [] => None
  end.
Definition read_digits (s : str) : option (str * str) := match take_while is_digit s with ([], _) => None | p => Some p end.
Definition read_fraction (s : str) : option (str * str) :=
  match s with c :: r => if c =? 46 then push c (read_digits r) else Some ([], s) | [] => Some ([], []) end.
Definition read_exponent (s : str) : option (str * str) :=
  match s with
  | c :: r => if (c =? 101) || (c =? 69) then
                match r with
                | g :: r' => if (g =? 43) || (g =? 45) then push c (push g (read_digits r')) else push c (read_digits r)
                | [] => None
                end
              else Some ([], s)
  | [] => Some ([], [])
  end.
Definition read_unsigned (s : str) : option (str * str) :=
  match read_int s with
  | Some (i, r) => match read_fraction r with
                   | Some (f, r) => match read_exponent r with Some (e, r) => Some (i ++ f ++ e, r) | None => None end
                   | None => None
                   end
  | None => None
  end.
Definition read_number (s : str) : option (str * str) :=
  match s with c :: r => if c =? 45 then push c (read_unsigned r) else read_unsigned s | [] => None end.

Fixpoint read_word (w s : str) : option str :=
  match w, s with
  | [], _ => Some s
  | x :: w, c :: s => if x =? c then read_word w s else None
  | _, [] => None
  end.
Definition read_literal (w : str) (j : json) (s : str) : option (json * str) := match read_word w s with Some r => Some (j, r) | None => None end.
Definition read_atom (s : str) : option (json * str) :=
  match s with
  | [] => None
  | c :: r =>
      if c =? 34 then match read_string r with Some (t, r) => Some (JString t, r) | None => None end
      else if c =? 110 then read_literal (lit "null") JNull s
      else if c =? 116 then read_literal (lit "true") (JBool true) s
      else if c =? 102 then read_literal (lit "false") (JBool false) s
      else match read_number s with Some (t, r) => Some (JNumber t, r) | None => None end
  end.
(** A value, the members of an object after its brace (at least one), the elements of an array after its bracket (at least one). The fuel
    bounds the depth of the calls; twice the length of the text is enough. *)
Fixpoint read_value (fuel : nat) (s : str) : option (json * str) :=
  match fuel with
  | 0%nat => None
  | S f =>
      match skip_white s with
      | [] => None
      | c :: r =>
          if c =? 123 then
            match skip_white r with
            | d :: r' => if d =? 125 then Some (JObject [], r') else match read_members f (d :: r') with Some (l, r') => Some (JObject l, r') | None => None end
            | [] => None
            end
          else if c =? 91 then
            match skip_white r with
            | d :: r' => if d =? 93 then Some (JArray [], r') else match read_elements f (d :: r') with Some (l, r') => Some (JArray l, r') | None => None end
            | [] => None
            end
          else read_atom (c :: r)
      end
  end
with read_elements (fuel : nat) (s : str) : option (list json * str) :=
  match fuel with
  | 0%nat => None
  | S f =>
      match read_value f s with
      | Some (j, r) =>
          match skip_white r with
          | c :: r => if c =? 93 then Some ([j], r)
                      else if c =? 44 then match read_elements f r with Some (l, r) => Some (j :: l, r) | None => None end else None
          | [] => None
          end
      | None => None
      end
  end
with read_members (fuel : nat) (s : str) : option (list (str * json) * str) :=
  match fuel with
  | 0%nat => None
  | S f =>
      match skip_white s with
      | q :: r =>
          if q =? 34 then
            match read_string r with
            | Some (k, r) =>
                match skip_white r with
                | c :: r =>
                    if c =? 58 then
                      match read_value f r with
                      | Some (j, r) =>
                          match skip_white r with
                          | c :: r => if c =? 125 then Some ([(k, j)], r)
                                      else if c =? 44 then match read_members f r with Some (l, r) => Some ((k, j) :: l, r) | None => None end else None
                          | [] => None
                          end
                      | None => None
                      end
                    else None
                | [] => None
                end
            | None => None
            end
          else None
      | [] => None
      end
  end.
Definition read_json (s : str) : option (json * str) := read_value (2 * List.length s + 2) s.

(** ** Requests: [EvalExpression]'s derived [Deserialize] (models/mod.rs 8-49), with serde_path_to_error's paths *)
Inductive segment := Key (k : str) | Index (i : nat).
Definition path := list segment.
(** serde_path_to_error's [Display]: "." for the root; otherwise keys after a dot (but the first), indices in brackets. *)
Definition show_index (i : nat) : str := 91 :: show_int (BinInt.Z.of_nat i) ++ [93].
Fixpoint show_segments (first : bool) (p : path) : str :=
  match p with
  | [] => []
  | Key k :: p => (if first then [] else [46]) ++ k ++ show_segments false p
  | Index i :: p => show_index i ++ show_segments false p
  end.
Definition show_path (p : path) : str := match p with [] => [46] | _ => show_segments true p end.

Section Requests.
(** serde_json's reading of a number as [f64]; [None] if it is out of range. *)
Variable number : str -> option f64.

(** [Variable] is untagged: a value is read whole first; it can be nested too deeply (serde_json allows 127 levels, of which the request
    and the object of variables are two) or contain a number out of range, which is an error where it is met. *)
Fixpoint content_error (levels : nat) (j : json) : option path :=
  match j with
  | JNumber t => match number t with Some _ => None | None => Some [] end
  | JArray l =>
      match levels with
      | 0%nat => Some []
      | S n => (fix elements (i : nat) (l : list json) : option path :=
                  match l with [] => None | x :: l => match content_error n x with Some p => Some (Index i :: p) | None => elements (S i) l end end) 0%nat l
      end
  | JObject l =>
      match levels with
      | 0%nat => Some []
      | S n => (fix members (l : list (str * json)) : option path :=
                  match l with [] => None | (k, x) :: l => match content_error n x with Some p => Some (Key k :: p) | None => members l end end) l
      end
  | _ => None
  end.
(** models/mod.rs 8-13: a string, or a number. *)
Definition read_variable (j : json) : variable + path :=
  match content_error 125 j with
  | Some p => inr p
  | None => match j with
            | JString s => inl (VString s)
            | JNumber t => match number t with Some x => inl (VNumber x) | None => inr [] end
            | _ => inr []
            end
  end.
(** [HashMap::insert] *)
Fixpoint insert (k : str) (v : variable) (m : list (str * variable)) : list (str * variable) :=
  match m with [] => [(k, v)] | (k', v') :: m => if str_eqb k k' then (k, v) :: m else (k', v') :: insert k v m end.
Fixpoint read_map (l : list (str * json)) (m : list (str * variable)) : list (str * variable) + path :=
  match l with
  | [] => inl m
  | (k, j) :: l => match read_variable j with inl v => read_map l (insert k v m) | inr p => inr (Key k :: p) end
  end.
(** models/mod.rs 48: [Option<HashMap<String, Variable>>] *)
Definition read_variables (j : json) : option (list (str * variable)) + path :=
  match j with
  | JNull => inl None
  | JObject l => match read_map l [] with inl m => inl (Some m) | inr p => inr p end
  | _ => inr []
  end.
(** models/mod.rs 24-41: the variants in lower case; serde_json takes a unit variant as a string or as an object with one null. *)
Definition variant (s : str) : option number_type :=
  if str_eqb s (lit "decimal") then Some NDecimal
  else if str_eqb s (lit "float") then Some NFloat
  else if str_eqb s (lit "complex") then Some NComplex
  else if str_eqb s (lit "integer") then Some NInteger
  else if str_eqb s (lit "binary") then Some NBinary
  else None.
(** models/mod.rs 47 *)
Definition read_type (j : json) : option number_type + path :=
  match j with
  | JNull => inl None
  | JString s => match variant s with Some t => inl (Some t) | None => inr [] end
  | JObject ((k, v) :: l) =>
      match variant k with
      | None => inr []
      | Some t => match v, l with JNull, [] => inl (Some t) | JNull, _ => inr [] | _, _ => inr [Key k] end
      end
  | _ => inr []
  end.
(** models/mod.rs 46 *)
Definition read_expression (j : json) : str + path := match j with JString s => inl s | _ => inr [] end.
Definition at_ {A} (g : segment) (r : A + path) : A + path := match r with inl a => inl a | inr p => inr (g :: p) end.

(** The fields read so far. *)
Record fields := Fields { f_expression : option str; f_type : option (option number_type); f_variables : option (option (list (str * variable))) }.
Definition flat {A} (o : option (option A)) : option A := match o with Some x => x | None => None end.
(** The derived [visit_map]: unknown fields are ignored, a field given twice is an error before its value is read, [expression] must be
    there at the end. *)
Fixpoint read_fields (l : list (str * json)) (f : fields) : request + path :=
  match l with
  | [] => match f_expression f with Some e => inl (Request e (flat (f_type f)) (flat (f_variables f))) | None => inr [] end
  | (k, j) :: l =>
      if str_eqb k (lit "expression") then
        match f_expression f with
        | Some _ => inr []
        | None => match at_ (Key k) (read_expression j) with inl e => read_fields l (Fields (Some e) (f_type f) (f_variables f)) | inr p => inr p end
        end
      else if str_eqb k (lit "type") then
        match f_type f with
        | Some _ => inr []
        | None => match at_ (Key k) (read_type j) with inl t => read_fields l (Fields (f_expression f) (Some t) (f_variables f)) | inr p => inr p end
        end
      else if str_eqb k (lit "variables") then
        match f_variables f with
        | Some _ => inr []
        | None => match at_ (Key k) (read_variables j) with inl v => read_fields l (Fields (f_expression f) (f_type f) (Some v)) | inr p => inr p end
        end
      else read_fields l f
  end.
(** The derived [visit_seq]: exactly three elements; the elements are read in order before their number is checked. *)
Definition read_sequence (l : list json) : request + path :=
  match l with
  | [] => inr []
  | je :: l =>
      match at_ (Index 0) (read_expression je), l with
      | inr p, _ => inr p
      | inl e, [] => inr []
      | inl e, jt :: l =>
          match at_ (Index 1) (read_type jt), l with
          | inr p, _ => inr p
          | inl t, [] => inr []
          | inl t, jv :: l =>
              match at_ (Index 2) (read_variables jv), l with
              | inr p, _ => inr p
              | inl v, [] => inl (Request e t v)
              | inl _, _ :: _ => inr []
              end
          end
      end
  end.
Definition read_request (j : json) : request + path :=
  match j with
  | JObject l => read_fields l (Fields None None None)
  | JArray l => read_sequence l
  | _ => inr []
  end.
(** endpoints/mod.rs 19-42. [end()] is not called: what follows the value does not matter. [otherwise] is what becomes of other texts. *)
Variable otherwise : str -> received.
Definition receive (body : list N) : received :=
  match from_utf8 body with
  | None => NotUtf8
  | Some s =>
      match read_json s with
      | Some (j, _) => match read_request j with inl q => Received q | inr p => NotARequest (show_path p) end
      | None => otherwise s
      end
  end.
End Requests.

(** ** Query strings (endpoints/mod.rs 9-12, 14-17, 45-47, 58-59): serde_urlencoded *)

(** form_urlencoded: '+' is a space; '%' and two hexadecimal digits a byte; the rest stands for itself. *)
Fixpoint percent_decode (s : list N) : list N :=
  match s with
  | [] => []
  | c :: r =>
      if c =? 43 then 32 :: percent_decode r
      else if c =? 37 then
        match r with
        | a :: b :: r' => match hex_value a, hex_value b with Some x, Some y => (x * 16 + y) :: percent_decode r' | _, _ => c :: percent_decode r end
        | _ => c :: percent_decode r
        end
      else c :: percent_decode r
  end.
Definition not_char (x : char) (c : char) : bool := negb (c =? x).
(** The parts between the '&'s that are not empty, each cut at its first '='. *)
Fixpoint query_parts (fuel : nat) (s : list N) : list (list N) :=
  match fuel, s with
  | S f, _ :: _ => let (p, r) := take_while (not_char 38) s in
                   let rest := query_parts f (match r with _ :: r' => r' | [] => [] end) in
                   match p with [] => rest | _ => p :: rest end
  | _, _ => []
  end.
Definition query_pair (p : list N) : list N * list N :=
  let (k, v) := take_while (not_char 61) p in (percent_decode k, percent_decode (match v with _ :: v' => v' | [] => [] end)).
Definition query_pairs (s : list N) : list (list N * list N) := map query_pair (query_parts (S (List.length s)) s).
(** A derived struct with one optional field [name]: [None] if the query does not deserialize ([.ok()]) or lacks the field. Names and values
    that are no UTF-8 are read with replacement characters, and so are none of the words looked for. *)
Definition query_field {A} (name : str) (value : list N -> option A) (pairs : list (list N * list N)) : option A :=
  match filter (fun p => str_eqb (fst p) name) pairs with [(_, v)] => value v | _ => None end.
(** [bool::from_str] *)
Definition read_bool (v : list N) : option bool := if str_eqb v (lit "true") then Some true else if str_eqb v (lit "false") then Some false else None.
Definition only_result (query : list N) : option bool := query_field (lit "only_result") read_bool (query_pairs query).
Definition query_type (query : list N) : option number_type := query_field (lit "type") variant (query_pairs query).

(** ** Writing JSON: serde_json's compact form *)
Definition hex_digit (n : N) : char := if n <? 10 then 48 + n else 87 + n.
Definition escape (c : char) : str :=
  if c =? 34 then [92; 34] else if c =? 92 then [92; 92]
  else if c =? 8 then [92; 98] else if c =? 9 then [92; 116] else if c =? 10 then [92; 110] else if c =? 12 then [92; 102] else if c =? 13 then [92; 114]
  else if c <? 32 then [92; 117; 48; 48; hex_digit (c / 16); hex_digit (c mod 16)]
  else [c].
Definition write_string (s : str) : str := 34 :: List.concat (map escape s) ++ [34].
Fixpoint joined (l : list str) : str := match l with [] => [] | [x] => x | x :: l => x ++ 44 :: joined l end.
Fixpoint write_json (j : json) : str :=
  match j with
  | JNull => lit "null"
  | JBool true => lit "true"
  | JBool false => lit "false"
  | JNumber t => t
  | JString s => write_string s
  | JArray l => 91 :: joined (map write_json l) ++ [93]
  | JObject l => 123 :: joined (map (fun '(k, v) => write_string k ++ 58 :: write_json v) l) ++ [125]
  end.
(** An [Option<String>]. *)
Definition optional (o : option str) : json := match o with Some s => JString s | None => JNull end.
Section Responses.
(** The text of an error message. *)
Variable say : message -> str.
(** models/mod.rs 52-56 *)
Definition evaluated_json (e : evaluated) : json := JObject [(lit "result", optional (e_result e)); (lit "error", optional (option_map say (e_error e)))].
(** endpoints/mod.rs 24-41, 49-54: the body of a response, in UTF-8 *)
Definition body_bytes (b : body) : list N := match b with Json e => utf8 (write_json (evaluated_json e)) | Plain s => utf8 s end.
End Responses.
(** services/info.rs 5-16 *)
Record fn_info := FnInfo { i_name : str; i_aliases : list str; i_description : option str }.
Definition fn_json (i : fn_info) : json :=
  JObject [(lit "name", JString (i_name i)); (lit "aliases", JArray (map JString (i_aliases i))); (lit "description", optional (i_description i))].
Definition var_json (i : str * str) : json := JObject [(lit "name", JString (fst i)); (lit "value", JString (snd i))].

(** endpoints/mod.rs 19-56: POST /eval, from the bytes of the body and the query string to a status and the bytes of the response. The
    framework's reading of the request and writing of the response headers are not modelled. *)
Definition post_eval {D W} (sv : service D W) (E : env) (dbg : bool) (number : str -> option f64) (otherwise : str -> received) (say : message -> str)
    (body : list N) (query : str) (w : W) : res (N * list N) * W :=
  match endpoint sv E dbg (receive number otherwise body) (only_result query) w with
  | (Ok (status, b), w') => (Ok (status, body_bytes say b), w')
  | (Err k, w') => (Err k, w')
  | (Panic, w') => (Panic, w')
  end.
