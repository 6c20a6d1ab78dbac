(** * From strings to tokens: /repo/prexel/src/tokenizer.rs *)
From Coq Require Import List NArith ZArith Bool Arith String.
From Verif Require Import ModelBase ModelContext ModelEvaluator ModelText ModelStr ModelSplit.
Import ListNotations.

Section Tokenizer.
Context {V W : Type}.
Variable c : ctx V W.
(** [N::from_str]; its error is only ever discarded. *)
Variable parse : str -> option V.

(** [&s[..1]]: the first byte of the string, which must end a char. *)
Definition first_byte (s : str) : res str :=
  match s with x :: _ => if is_ascii x then Ok [x] else Panic | [] => Panic end.

Definition is_value_name (s : str) : bool := is_some (parse s) || is_variable c s || is_constant c s.
(** The test [if let Some(ch) = s.single_char() { if config.is_group_close(ch) ..] *)
Definition is_close_symbol (s : str) : bool := match single_char s with Some ch => is_group_close (cfg c) ch | None => false end.

(** tokenizer.rs 190-256. [has_next]: whether [next] is [Some]; nothing else of it is used. *)
Definition is_unary (prev : option str) (cur : str) (has_next : bool) : res bool :=
  match get_unary c cur with
  | None => Ok false
  | Some op =>
      match uf_notation op with
      | Postfix => Ok match prev with Some s => is_close_symbol s || is_value_name s | None => false end
      | Prefix =>
          if negb has_next then Ok false
          else match prev with
               | None => Ok true
               | Some p =>
                   if is_close_symbol p then Ok false
                   else if is_value_name p then Ok false
                   else rbind (first_byte p) (fun b =>
                     if is_unary_function c b && negb (is_binary_function c b) then Ok false
                     else Ok match p with [ch] => is_ascii_punctuation ch | _ => true end)
               end
      end
  end.

(** tokenizer.rs 118-174, the cases after the number. [None]: a space, ignored. *)
Definition classify (prev : option str) (string : str) (has_next : bool) : res (option (token V)) :=
  if is_variable c string then Ok (Some (TVariable string))
  else if is_constant c string then Ok (Some (TConstant string))
  else if is_function_name c string then Ok (Some (TFunction string))
  else if is_binary_function c string || is_unary_function c string then
    rbind (is_unary prev string has_next) (fun u =>
      if u then Ok (Some (TUnary string))
      else if negb (is_some prev) || negb has_next then Err InvalidExpression
      else Ok (Some (TBinary string)))
  else if str_eqb string (lit ",") then Ok (Some TComma)
  else if str_eqb string (lit " ") then Ok None
  else match (if Nat.eqb (byte_len string) 1 then
                match string with ch :: _ => option_map (fun p => (ch, fst p)) (get_group_symbol (cfg c) ch) | [] => None end
              else None) with
       | Some (ch, open) => Ok (Some (if char_eqb ch open then TOpen ch else TClose ch))
       | None => Ok (Some (TUnknown string))
       end.

(** tokenizer.rs 84-177. [prev] is [raw_tokens[pos - 1]]; [next] is [None] for the last raw token. *)
Fixpoint tokenize_loop (prev : option str) (raw : list str) : res (list (token V)) :=
  match raw with
  | [] => Ok []
  | string :: rest =>
      match parse string with
      | Some n =>
          match rest with
          | im :: rest' =>
              if complex_number (cfg c) && str_eqb im (lit "i") then
                match parse (string ++ im) with
                | Some n' => rbind (tokenize_loop (Some im) rest') (fun ts => Ok (TNumber n' :: ts))
                | None => Err InvalidInput
                end
              else rbind (tokenize_loop (Some string) rest) (fun ts => Ok (TNumber n :: ts))
          | [] => Ok [TNumber n]
          end
      | None =>
          rbind (classify prev string (negb (Nat.eqb (List.length rest) 0))) (fun o =>
          rbind (tokenize_loop (Some string) rest) (fun ts =>
          Ok match o with Some t => t :: ts | None => ts end))
      end
  end.

(** tokenizer.rs 69-80. The splitter is any function. *)
Definition tokenize (splitter : str -> list str) (expression : str) : res (list (token V)) :=
  match trim expression with
  | [] => Err Empty
  | _ => tokenize_loop None (splitter expression)
  end.

(** /repo/prexel/src/evaluator.rs 100-104 *)
Definition eval (splitter : str -> list str) (dbg : bool) (expression : str) : M W V :=
  bind (lift (tokenize splitter expression)) (fun tokens => eval_tokens c dbg tokens).
End Tokenizer.
