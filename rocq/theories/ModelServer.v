(** * The programs around the library: /repo/prexel-server/src and /repo/eval/src/eval_expr.rs, list.rs, main.rs

    Not modelled: HTTP, JSON, actix and its rate limiter's counters; how a decimal, a float or a complex number is written and
    read as a string is left open (functions of the record [service]); of error messages only their origin is kept. *)
From Coq Require Import List NArith ZArith Bool Arith String.
From Verif Require Import ModelBase ModelContext ModelText ModelDefault ModelFloat ModelNum ModelOps ModelParse ModelSplit ModelTokenizer ModelBinary ModelDecimal ModelComplex.
Import ListNotations.

(** ** models/mod.rs *)

(** models/mod.rs 7-21 ([to_string] of a number is left open: [show_f64]) *)
Inductive variable := VString (s : str) | VNumber (x : f64).
(** models/mod.rs 24-41; the same five of eval/src/main.rs 15-22 *)
Inductive number_type := NDecimal | NFloat | NComplex | NInteger | NBinary.
(** models/mod.rs 44-49. The entries of the [HashMap], in the order in which it is iterated. *)
Record request := Request { q_expression : str; q_type : option number_type; q_variables : option (list (str * variable)) }.
(** An error message: one of the server's own, or where it comes from: a variable's text that is no number, or an error of the library. *)
Inductive message := Text (s : str) | NotANumber (s : str) | Failure (k : errkind).
(** models/mod.rs 5: [EvalResult] *)
Definition eval_result : Type := (str + message)%type.
(** models/mod.rs 52-56 *)
Record evaluated := Evaluated { e_result : option str; e_error : option message }.
(** models/mod.rs 59-64 *)
Definition with_error (m : message) : evaluated := Evaluated None (Some m).
(** models/mod.rs 67-80 *)
Definition evaluated_of (r : eval_result) : evaluated :=
  match r with inl s => Evaluated (Some s) None | inr m => Evaluated None (Some m) end.

(** endpoints/mod.rs 46-54: the end of [eval]: the body of the response (its status is 200 in each case). [only_result] is [None] if the
    query does not parse or lacks it. *)
Inductive body := Json (e : evaluated) | Plain (s : str).
Definition respond (only_result : option bool) (r : eval_result) : body :=
  let only := match only_result with Some b => b | None => false end in
  match r with
  | inl s => if only then Plain s else Json (evaluated_of r)
  | inr _ => Json (evaluated_of r)
  end.

(** ** services/evaluator.rs *)
Section Typed.
Context {V W : Type}.
Variable E : env.
Variable dbg : bool.
(** How a variable's text is read, how numbers in expressions are read, how results are written. *)
Variable read : str -> option V.
Variable parse : str -> option V.
Variable show : V -> str.
Variable show_f64 : f64 -> str.

Definition variable_text (v : variable) : str := match v with VString s => s | VNumber x => show_f64 x end.

(** evaluator.rs 33-45 (and 60-72, 87-99, 114-126, 141-153): the loop over the variables *)
Fixpoint set_variables (vars : list (str * variable)) (d : dctx V W) : res (dctx V W + message) :=
  match vars with
  | [] => Ok (inl d)
  | (name, v) :: vars' =>
      match read (variable_text v) with
      | Some x =>
          match set_variable E dbg name x d with
          | (Ok _, d') => set_variables vars' d'
          | (Err k, _) => Ok (inr (Failure k))
          | (Panic, _) => Panic
          end
      | None => Ok (inr (NotANumber (variable_text v)))
      end
  end.

(** evaluator.rs 30-55, and the four other functions 57-82, 84-109, 111-136, 138-164: the constructor may panic, as may the evaluation. *)
Definition eval_typed (context : res (dctx V W)) (rules : list rule) (vars : option (list (str * variable))) (expression : str) : M W eval_result :=
  fun w =>
  match context with
  | Ok d =>
      match set_variables (match vars with Some l => l | None => [] end) d with
      | Ok (inl d') =>
          match eval (to_ctx E d') parse (split_into_tokens rules) dbg expression w with
          | (Ok v, w') => (Ok (inl (show v)), w')
          | (Err k, w') => (Ok (inr (Failure k)), w')
          | (Panic, w') => (Panic, w')
          end
      | Ok (inr m) => (Ok (inr m), w)
      | _ => (Panic, w)
      end
  | _ => (Panic, w)
  end.
End Typed.

(** The standard library's [Display] of the signed integers: decimal digits, with a minus sign for negative numbers. The fuel suffices
    (a number has no more decimal digits than binary ones). *)
Fixpoint decimal_digits (fuel : nat) (z : Z) (acc : str) : str :=
  match fuel with
  | 0%nat => acc
  | S f => let acc' := Z.to_N (48 + z mod 10) :: acc in if z <? 10 then acc' else decimal_digits f (z / 10) acc'
  end%Z.
Definition show_int (z : Z) : str :=
  let digits a := decimal_digits (S (Z.to_nat (Z.log2 a))) a [] in
  if (z <? 0)%Z then 45%N :: digits (- z)%Z else digits z.

(** What the model leaves open: the arithmetic of decimals and their loops' fuel, the platform's mathematical functions, num_complex's,
    the source of random numbers, the feature "docs", and reading and writing numbers. *)
Record service (D W : Type) := Service {
  s_dlib : dlib D; s_fuel : nat; s_libm : libm; s_clib : clib; s_random : W -> f64 * W; s_docs : bool; s_float_fuel : nat;
  s_read_decimal : str -> option D; s_read_f64 : str -> option f64; s_read_complex : str -> option c64;
  s_show_decimal : D -> str; s_show_f64 : f64 -> str; s_show_complex : c64 -> str }.
Arguments s_dlib {D W}. Arguments s_fuel {D W}. Arguments s_libm {D W}. Arguments s_clib {D W}. Arguments s_random {D W}. Arguments s_docs {D W}. Arguments s_float_fuel {D W}.
Arguments s_read_decimal {D W}. Arguments s_read_f64 {D W}. Arguments s_read_complex {D W}.
Arguments s_show_decimal {D W}. Arguments s_show_f64 {D W}. Arguments s_show_complex {D W}.

(** evaluator.rs 11-16 *)
Definition server_config : config := config_with_implicit_mul (config_with_grouping (config_with_grouping config_default Parenthesis) Bracket) true.

Section Server.
Context {D W : Type}.
Variable sv : service D W.
Variable E : env.
Variable dbg : bool.

(** The contexts of a type, for a configuration. *)
Definition decimals (cf : config) : res (dctx D W) := decimal_context (s_dlib sv) (s_fuel sv) (s_random sv) E dbg cf.
Definition checked_floats (cf : config) : res (dctx f64 W) := checked_context (f64_num (s_float_fuel sv)) (s_libm sv) (s_random sv) (s_docs sv) E dbg cf.
Definition unchecked_floats (cf : config) : res (dctx f64 W) := unchecked_context (f64_num (s_float_fuel sv)) (s_libm sv) (s_random sv) E dbg cf.
Definition integers (cf : config) : res (dctx Z W) := checked_context (int_num i128 dbg) (s_libm sv) (s_random sv) (s_docs sv) E dbg cf.
Definition complexes (cf : config) : res (dctx c64 W) := complex_context (s_clib sv) (s_random sv) E dbg cf.
Definition binaries (cf : config) : res (dctx Z W) := binary_context dbg E cf.

(** evaluator.rs 18-164. [DefaultContext::with_config_checked] takes its number type from the variables set: [f64] and [i128]. *)
Definition eval_expression (q : request) : M W eval_result :=
  let vars := q_variables q in
  let e := q_expression q in
  match (match q_type q with Some t => t | None => NDecimal end) with
  | NDecimal => eval_typed E dbg (s_read_decimal sv) (s_read_decimal sv) (s_show_decimal sv) (s_show_f64 sv) (decimals server_config) default_splitter vars e
  | NFloat => eval_typed E dbg (s_read_f64 sv) (s_read_f64 sv) (s_show_f64 sv) (s_show_f64 sv) (checked_floats server_config) default_splitter vars e
  | NInteger => eval_typed E dbg (parse_int i128) (parse_int i128) show_int (s_show_f64 sv) (integers server_config) default_splitter vars e
  | NComplex => eval_typed E dbg (s_read_complex sv) (s_read_complex sv) (s_show_complex sv) (s_show_f64 sv)
                  (complexes (config_with_complex_number server_config true)) default_splitter vars e
  | NBinary => eval_typed E dbg (parse_int i128) parse_binary show_binary (s_show_f64 sv) (binaries server_config) binary_number_splitter vars e
  end.

(** endpoints/mod.rs 19-54: the whole of [eval]. How serde reads a body is in ModelJson; here the body is no UTF-8, no request (with the path
    serde_path_to_error gives), or a request. *)
Inductive received := NotUtf8 | NotARequest (path : str) | Received (q : request).
Definition endpoint (b : received) (only_result : option bool) : M W (N * body) :=
  match b with
  | NotUtf8 => ret (400%N, Json (with_error (Text (lit "Invalid JSON"))))
  | NotARequest path =>
      ret (400%N, Json (with_error (Text (if str_eqb path (lit ".") then lit "Invalid json" else lit "Invalid value type at path: " ++ path))))
  | Received q => bind (eval_expression q) (fun r => ret (200%N, respond only_result r))
  end.

(** ** services/info.rs, endpoints/mod.rs 56-156: what is listed for a type (names only; in the order of the hash maps).
    Lines 67-71, 101-105, 135-139: for [Float] the decimal context is listed. *)
Definition names_of {V} (r : res (dctx V W)) : res (list str * list str * list str) :=
  match r with
  | Ok d => Ok (map fst (d_funs d), map fst (d_binary d) ++ map fst (d_unary d), map fst (d_consts d))
  | Err k => Err k
  | Panic => Panic
  end.
Definition listed (t : option number_type) : res (list str * list str * list str) :=
  match (match t with Some t => t | None => NDecimal end) with
  | NDecimal => names_of (decimals config_new)
  | NFloat => names_of (decimals config_new)
  | NComplex => names_of (complexes (config_with_complex_number config_new true))
  | NInteger => names_of (integers config_new)
  | NBinary => names_of (binaries config_new)
  end.

(** ** The command line *)

(** eval/src/main.rs 24-37 *)
Definition eval_type_from_str (s : str) : option number_type :=
  if str_eqb s (lit "decimal") then Some NDecimal
  else if str_eqb s (lit "float") then Some NFloat
  else if str_eqb s (lit "integer") then Some NInteger
  else if str_eqb s (lit "complex") then Some NComplex
  else if str_eqb s (lit "binary") then Some NBinary
  else None.

(** eval/src/eval_expr.rs 10-13 *)
Definition cli_config : config := config_with_implicit_mul config_new true.
Definition cli_typed {V} (parse : str -> option V) (show : V -> str) (context : res (dctx V W)) (rules : list rule) (expression : str) : M W str :=
  fun w =>
  match context with
  | Ok d =>
      match eval (to_ctx E d) parse (split_into_tokens rules) dbg expression w with
      | (Ok v, w') => (Ok (show v), w')
      | (Err k, w') => (Err k, w')
      | (Panic, w') => (Panic, w')
      end
  | _ => (Panic, w)
  end.
(** eval/src/eval_expr.rs 20-67. [Float] uses the unchecked context (42-46). *)
Definition cli_eval (t : number_type) (expression : str) : M W str :=
  match t with
  | NDecimal => cli_typed (s_read_decimal sv) (s_show_decimal sv) (decimals cli_config) default_splitter expression
  | NComplex => cli_typed (s_read_complex sv) (s_show_complex sv) (complexes (config_with_complex_number cli_config true)) default_splitter expression
  | NFloat => cli_typed (s_read_f64 sv) (s_show_f64 sv) (unchecked_floats cli_config) default_splitter expression
  | NInteger => cli_typed (parse_int i128) show_int (integers cli_config) default_splitter expression
  | NBinary => cli_typed parse_binary show_binary (binaries cli_config) binary_number_splitter expression
  end.
(** eval/src/list.rs 17-35 *)
Definition cli_listed (t : number_type) : res (list str * list str * list str) :=
  match t with
  | NDecimal => names_of (decimals config_new)
  | NFloat => names_of (unchecked_floats config_new)
  | NInteger => names_of (integers config_new)
  | NComplex => names_of (complexes (config_with_complex_number config_new true))
  | NBinary => names_of (binaries config_new)
  end.
End Server.

(** eval/src/list.rs 138-151: [pad_right]; [len] is the length in bytes. *)
Definition pad_right (s : str) (width : nat) : str :=
  let padding := if Nat.ltb (byte_len s) width then (width - byte_len s)%nat else 0%nat in
  s ++ repeat 32%N padding.

(** eval/src/list.rs 54-59 (and 72-77, 107-112, 125-129): the width of the column of names *)
Definition column_width (names : list str) : nat := (fold_right Nat.max 0 (map byte_len names) + 4)%nat.

(** ** middlewares/rate_limiter.rs *)

(** The crate base64: [base64::encode], standard alphabet with padding. Bytes are numbers below 256; '=' is 61. *)
Definition b64_char (n : N) : char :=
  if (n <? 26)%N then (65 + n)%N else if (n <? 52)%N then (97 + (n - 26))%N else if (n <? 62)%N then (48 + (n - 52))%N
  else if (n =? 62)%N then 43%N else 47%N.
Fixpoint b64_encode (bytes : list N) : str :=
  match bytes with
  | [] => []
  | [a] => [b64_char (a / 4); b64_char ((a mod 4) * 16); 61; 61]%N
  | [a; b] => [b64_char (a / 4); b64_char ((a mod 4) * 16 + b / 16); b64_char ((b mod 16) * 4); 61]%N
  | a :: b :: c :: rest =>
      [b64_char (a / 4); b64_char ((a mod 4) * 16 + b / 16); b64_char ((b mod 16) * 4 + c / 64); b64_char (c mod 64)]%N ++ b64_encode rest
  end.
(** [str::trim_end_matches('=')] *)
Definition trim_end_equals (s : str) : str :=
  rev ((fix drop l := match l with 61%N :: l' => drop l' | _ => l end) (rev s)).

(** What of a request identifies its sender: the address in the connection info, the peer's address, the cookie [X-Ratelimit-Id]
    and its [http_only] flag. *)
Record sender := Sender { remote_addr : option (list N); peer_addr : option (list N); id_cookie : option (list N * option bool) }.
(** rate_limiter.rs 8-25. [cookie.http_only()] is absent unless set. *)
Definition internal_get_identifier (r : sender) : option (list N) :=
  match remote_addr r with
  | Some a => Some a
  | None =>
      match peer_addr r with
      | Some a => Some a
      | None =>
          match id_cookie r with
          | Some (v, http_only) => if match http_only with Some b => b | None => true end then Some v else None
          | None => None
          end
      end
  end.
(** rate_limiter.rs 7-30 *)
Definition get_rate_limit_identifier (r : sender) : option str :=
  option_map (fun id => trim_end_equals (b64_encode id)) (internal_get_identifier r).
(** rate_limiter.rs 32-35; the sixteen bytes of a random UUID are an argument. *)
Definition generate_rate_limit_id (uuid : list N) : str := trim_end_equals (b64_encode uuid).
