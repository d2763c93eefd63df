(** Model of the tokenizer: /repo/src/parser.rs lines 6-34 and 195-520. *)
From Verif Require Import Base.
Open Scope mon_scope.

(** parser.rs 6-10 [struct Pos] (usize as nat). *)
Record Pos := mkPos { pos_r : nat; pos_c : nat }.

(** parser.rs 195-203 [enum TokenType]. *)
Inductive TokenType (F : Type) : Type :=
| TIdent (s : str)
| TInt (i : Z)
| TFloat (f : F)
| TStr (s : str)
| TLBracket
| TRBracket.
Arguments TIdent {F} s. Arguments TInt {F} i. Arguments TFloat {F} f. Arguments TStr {F} s.
Arguments TLBracket {F}. Arguments TRBracket {F}.

(** parser.rs 24-28 [struct Token]. *)
Record Token (F : Type) := mkTok { tok_pos : Pos; tok_ty : TokenType F }.
Arguments mkTok {F}. Arguments tok_pos {F}. Arguments tok_ty {F}.

(** parser.rs 221-231 [TokenizerError], [ParserError]: [Str(String)] or [Eof].
    The string is kept as the list of the arguments given to [format!] (its literal text, positions, characters, ...);
    RenderModel writes it out. *)
Inductive error (F : Type) : Type :=
| EStr (msg : list (piece F))
| EEof
with piece (F : Type) : Type :=
| PText (s : string)              (* literal text *)
| PPos (p : Pos)                  (* {} of a Pos *)
| PChar (c : char)                (* {} of a char *)
| PStr (s : str)                  (* {} of a string *)
| PStrDbg (s : str)               (* {:?} of a string *)
| PNat (n : nat)                  (* {} of a usize *)
| PTok (t : TokenType F)          (* {:?} of a TokenType *)
| PErr (e : error F)              (* {} of a ParserError *)
| PErrDbg (e : error F).          (* {:?} of a ParserError *)
Arguments EStr {F}. Arguments EEof {F}.
Arguments PText {F}. Arguments PPos {F}. Arguments PChar {F}. Arguments PStr {F}. Arguments PStrDbg {F}.
Arguments PNat {F}. Arguments PTok {F}. Arguments PErr {F}. Arguments PErrDbg {F}.

(** parser.rs 205-211 [struct Tokenizer]. *)
Record tokenizer := mkTk { tk_chars : list char; tk_index : nat; tk_pos : Pos; tk_prev : Pos }.

(** [str::replace("\r\n", "\n")], used by parser.rs 266. *)
Fixpoint replace_crlf (s : str) : str :=
  match s with
  | [] => []
  | c :: t =>
      if (c =? c_cr)%N then
        match t with
        | d :: t' => if (d =? c_lf)%N then c_lf :: replace_crlf t' else c :: replace_crlf t
        | [] => [c]
        end
      else c :: replace_crlf t
  end.

Section Tokenizer.
Context {F : Type} (fo : FloatOps F) (cc : CharClass) (chk : bool).

Notation TM A := (M tokenizer (result A (error F))).

(** parser.rs 264-271 [Tokenizer::new]. *)
Definition tk_new (input : str) : tokenizer :=
  mkTk (replace_crlf input) 0 (mkPos 1 1) (mkPos 1 1).

(** parser.rs 309-311 [Tokenizer::is_empty]. *)
Definition tk_is_empty (t : tokenizer) : bool := List.length (tk_chars t) <=? tk_index t.

(** parser.rs 286-292 [Tokenizer::peek]. Out-of-range indexing would panic. *)
Definition tk_peek : TM char :=
  fun t => if negb (tk_is_empty t)
           then match nth_error (tk_chars t) (tk_index t) with
                | Some c => Done (Ok c, t)
                | None => Panic
                end
           else Done (Err EEof, t).

(** parser.rs 294-307 [Tokenizer::next]. *)
Definition tk_next : TM char :=
  fun t => if tk_is_empty t then Done (Err EEof, t)
           else match nth_error (tk_chars t) (tk_index t) with
                | None => Panic
                | Some ch =>
                    Done (Ok ch,
                          mkTk (tk_chars t) (tk_index t + 1)
                               (if (ch =? c_lf)%N
                                then mkPos (pos_r (tk_pos t) + 1) 1
                                else mkPos (pos_r (tk_pos t)) (pos_c (tk_pos t) + 1))
                               (tk_pos t))
                end.

Definition cur_pos : M tokenizer Pos := t <- get ;; ret (tk_pos t).
Definition cur_prev : M tokenizer Pos := t <- get ;; ret (tk_prev t).

(** ** Conversions done by [str::parse] (standard library). *)

Definition digit_val (c : char) : option Z :=
  if is_ascii_digit c then Some (Z.of_N (c - c_0)) else None.

(** Digit loop of [isize::from_str]: checked accumulation, [sgn] is 1 or -1. *)
Fixpoint parse_int_loop (sgn : Z) (s : str) (acc : Z) : result Z (error F) :=
  match s with
  | [] => Ok acc
  | c :: t =>
      match digit_val c with
      | None => Err (EStr [PText "invalid digit found in string"])
      | Some d =>
          let v := (acc * 10 + sgn * d)%Z in
          if in_range v then parse_int_loop sgn t v
          else Err (EStr [PText (if (sgn =? 1)%Z then "number too large to fit in target type"
                                 else "number too small to fit in target type")])
      end
  end.

(** [str::parse::<isize>] (used in parser.rs 409, 449). *)
Definition parse_isize (s : str) : result Z (error F) :=
  match s with
  | [] => Err (EStr [PText "cannot parse integer from empty string"])
  | [c] => if ((c =? c_minus) || (c =? c_plus))%N then Err (EStr [PText "invalid digit found in string"])
           else parse_int_loop 1 s 0
  | c :: t => if (c =? c_minus)%N then parse_int_loop (-1) t 0
              else if (c =? c_plus)%N then parse_int_loop 1 t 0
              else parse_int_loop 1 s 0
  end.

(** Digits and at most one dot: mantissa, number of digits, number of fraction digits. *)
Fixpoint scan_dec (s : str) (m : N) (nd k : nat) (dot : bool) : option (N * nat * nat) :=
  match s with
  | [] => Some (m, nd, k)
  | c :: t =>
      if is_ascii_digit c then scan_dec t (m * 10 + (c - c_0))%N (S nd) (if dot then S k else k) dot
      else if (c =? c_dot)%N then if dot then None else scan_dec t m nd k true
      else None
  end.

(** [str::parse::<Float>] (used in parser.rs 400, 418, 444), restricted to the strings the tokenizer can build:
    an optional '-', then characters that are numeric or a dot. Exponents, "inf" and "nan" need letters and cannot occur. *)
Definition parse_float_str (s : str) : result F (error F) :=
  let (neg, body) := match s with
                     | c :: t => if (c =? c_minus)%N then (true, t)
                                 else if (c =? c_plus)%N then (false, t) else (false, s)
                     | [] => (false, s)
                     end in
  match s with
  | [] => Err (EStr [PText "cannot parse float from empty string"])
  | _ => match scan_dec body 0 0 0 false with
         | Some (m, S nd, k) => Ok (f_dec fo neg m k)
         | _ => Err (EStr [PText "invalid float literal"])
         end
  end.

(** [isize::pow(10, e)]: every intermediate product divides the final one, so overflow is that of the final value. *)
Definition isize_pow10 (e : Z) : out Z := arith chk (10 ^ e).
(** [isize * isize]. *)
Definition isize_mul (a b : Z) : out Z := arith chk (a * b).
(** [i as u32]. *)
Definition as_u32 (i : Z) : Z := (i mod 2 ^ 32)%Z.

(** ** Numbers *)

(** parser.rs 423-428 and 435-440, 389-392: the "no number" error. *)
Definition no_number (p : Pos) : error F := EStr [PPos p; PText " tokenize_num(): no number"].

(** parser.rs 361-373: sign handling at the start of [tokenize_num], followed by its loop [loop]. *)
Definition num_prelude (loop : Pos -> str -> bool -> TM (Token F)) : TM (Token F) :=
  start_pos <- cur_pos ;;
  r <- tk_peek ;;
  num_chars <- (match r with
                | Ok ch => if (ch =? c_minus)%N then (_ <- tk_next ;; ret [ch])
                           else if (ch =? c_plus)%N then (_ <- tk_next ;; ret [])
                           else ret []
                | Err _ => ret []
                end) ;;
  loop start_pos num_chars false.

(** parser.rs 395-429: what follows the recursive call on the exponent. *)
Definition num_exponent (start_pos : Pos) (num_chars : str) (is_float : bool) (ex : TokenType F)
  : TM (Token F) :=
  match ex with
  | TFloat f =>
      m <-? ret (parse_float_str num_chars) ;;
      ret (Ok (mkTok start_pos (TFloat (f_mul fo m (f_powf10 fo f)))))
  | TInt i =>
      if ((0 <=? i)%Z && negb is_float)%bool then
        m <-? ret (parse_isize num_chars) ;;
        p <- lift (isize_pow10 (as_u32 i)) ;;
        v <- lift (isize_mul m p) ;;
        ret (Ok (mkTok start_pos (TInt v)))
      else
        m <-? ret (parse_float_str num_chars) ;;
        ret (Ok (mkTok start_pos (TFloat (f_mul fo m (f_powf10 fo (f_of_isize fo i))))))
  | _ => ret (Err (no_number start_pos))
  end.

(** parser.rs 435-451: the end of [tokenize_num], after its loop. *)
Definition num_finish (start_pos : Pos) (num_chars : str) (is_float : bool) : TM (Token F) :=
  match num_chars with
  | [] => p <- cur_pos ;; ret (Err (no_number p))
  | _ => if is_float
         then f <-? ret (parse_float_str num_chars) ;; ret (Ok (mkTok start_pos (TFloat f)))
         else i <-? ret (parse_isize num_chars) ;; ret (Ok (mkTok start_pos (TInt i)))
  end.

(** parser.rs 374-434: the loop of [tokenize_num]; the recursive call of line 395 is [num_prelude] of the loop itself. *)
Fixpoint num_loop (fuel : nat) (start_pos : Pos) (num_chars : str) (is_float : bool) : TM (Token F) :=
  match fuel with
  | 0 => out_of_fuel
  | S n =>
      r <- tk_peek ;;
      match r with
      | Ok ch =>
          if is_numeric cc ch then
            c <-? tk_next ;; num_loop n start_pos (num_chars ++ [c]) is_float
          else if (ch =? c_dot)%N then
            if is_float then
              p <- cur_pos ;;
              ret (Err (EStr [PPos p; PText " tokenize_num(): unexpected char '"; PChar ch; PText "'"]))
            else
              c <-? tk_next ;; num_loop n start_pos (num_chars ++ [c]) true
          else if (ch =? c_e)%N then
            match num_chars with
            | [] => p <- cur_pos ;; ret (Err (no_number p))
            | _ =>
                _ <- tk_next ;;
                tok <-? num_prelude (num_loop n) ;;
                num_exponent start_pos num_chars is_float (tok_ty tok)
            end
          else num_finish start_pos num_chars is_float
      | Err EEof => num_finish start_pos num_chars is_float
      | Err err => ret (Err err)
      end
  end.

(** parser.rs 361-452 [Tokenizer::tokenize_num]. *)
Definition tokenize_num (fuel : nat) : TM (Token F) := num_prelude (num_loop fuel).

(** ** Strings *)

(** parser.rs 468-496: the loop of [tokenize_str]. *)
Fixpoint str_loop (fuel : nat) (start_pos : Pos) (str_chars : str) : TM (Token F) :=
  match fuel with
  | 0 => out_of_fuel
  | S n =>
      r <- tk_next ;;
      match r with
      | Ok ch =>
          if (ch =? c_bslash)%N then
            r2 <- tk_next ;;
            match r2 with
            | Ok ch2 => if (ch2 =? c_n)%N then str_loop n start_pos (str_chars ++ [c_lf])
                        else str_loop n start_pos (str_chars ++ [ch2])
            | Err EEof => p <- cur_prev ;;
                          ret (Err (EStr [PPos p; PText " tokenize_str(): EOF while processing escape seq"]))
            | Err err => ret (Err err)
            end
          else if (ch =? c_quote)%N then ret (Ok (mkTok start_pos (TStr str_chars)))
          else str_loop n start_pos (str_chars ++ [ch])
      | Err EEof => p <- cur_pos ;;
                    ret (Err (EStr [PPos p; PText " tokenize_str(): EOF while processing string"]))
      | Err err => ret (Err err)
      end
  end.

(** parser.rs 454-497 [Tokenizer::tokenize_str]. *)
Definition tokenize_str (fuel : nat) : TM (Token F) :=
  start_pos <- cur_pos ;;
  r <- tk_next ;;
  match r with
  | Ok _ => str_loop fuel start_pos []
  | Err EEof => p <- cur_pos ;;
                ret (Err (EStr [PPos p; PText " tokenize_str(): EOF while processing string"]))
  | Err err => ret (Err err)
  end.

(** ** Identifiers *)

(** parser.rs 502-508: the loop of [tokenize_id]. *)
Fixpoint id_loop (fuel : nat) (id_chars : str) : TM str :=
  match fuel with
  | 0 => out_of_fuel
  | S n =>
      r <- tk_peek ;;
      match r with
      | Ok ch => if is_alphanumeric cc ch
                 then c <-? tk_next ;; id_loop n (id_chars ++ [c])
                 else ret (Ok id_chars)
      | Err EEof => ret (Ok id_chars)
      | Err err => ret (Err err)
      end
  end.

(** parser.rs 499-519 [Tokenizer::tokenize_id]. *)
Definition tokenize_id (fuel : nat) : TM (Token F) :=
  start_pos <- cur_pos ;;
  c <-? tk_next ;;
  id_chars <-? id_loop fuel [c] ;;
  match id_chars with
  | [] => p <- cur_pos ;; ret (Err (EStr [PPos p; PText " tokenize_id(): no identifier"]))
  | _ => ret (Ok (mkTok start_pos (TIdent id_chars)))
  end.

(** ** One token *)

(** parser.rs 316-320: skip a comment up to and including the line feed. *)
Fixpoint skip_comment (fuel : nat) : M tokenizer unit :=
  match fuel with
  | 0 => out_of_fuel
  | S n => r <- tk_next ;;
           match r with
           | Ok ch => if (ch =? c_lf)%N then ret tt else skip_comment n
           | Err _ => ret tt
           end
  end.

(** parser.rs 342-349: skip white space. *)
Fixpoint skip_ws (fuel : nat) : TM unit :=
  match fuel with
  | 0 => out_of_fuel
  | S n => r <- tk_peek ;;
           match r with
           | Ok ch => if is_whitespace ch then (_ <-? tk_next ;; skip_ws n) else ret (Ok tt)
           | Err _ => ret (Ok tt)
           end
  end.

(** parser.rs 340: first characters that start a number. *)
Definition starts_num (c : char) : bool :=
  ((c =? c_minus) || (c =? c_plus) || (c =? c_dot))%N || is_numeric cc c.

(** parser.rs 313-359 [Tokenizer::tokenize_one]. *)
Fixpoint tokenize_one (fuel : nat) : TM (Token F) :=
  match fuel with
  | 0 => out_of_fuel
  | S n =>
      r <- tk_peek ;;
      match r with
      | Ok c =>
          if (c =? c_hash)%N then _ <- skip_comment n ;; tokenize_one n
          else if (c =? c_quote)%N then tokenize_str n
          else if (c =? c_lbrack)%N then
            p <- cur_pos ;; _ <- tk_next ;; ret (Ok (mkTok p TLBracket))
          else if (c =? c_rbrack)%N then
            p <- cur_pos ;; _ <- tk_next ;; ret (Ok (mkTok p TRBracket))
          else if starts_num c then tokenize_num n
          else if is_whitespace c then _ <-? skip_ws n ;; tokenize_one n
          else if is_alphabetic cc c then tokenize_id n
          else p <- cur_pos ;;
               ret (Err (EStr [PPos p; PText " tokenize_one(): unexpected char '"; PChar c; PText "'"]))
      | Err err => ret (Err err)
      end
  end.

(** parser.rs 276-283: the loop of [Tokenizer::tokenize]. *)
Fixpoint tokenize_loop (fuel : nat) (tokens : list (Token F)) : TM (list (Token F)) :=
  match fuel with
  | 0 => out_of_fuel
  | S n =>
      t <- get ;;
      if negb (tk_is_empty t) then
        r <- tokenize_one n ;;
        match r with
        | Ok tok => tokenize_loop n (tokens ++ [tok])
        | Err EEof => ret (Ok tokens)
        | Err err => ret (Err err)
        end
      else ret (Ok tokens)
  end.

(** Fuel used by [tokenize]: a few more than the number of characters. *)
Definition tk_fuel (t : tokenizer) : nat := List.length (tk_chars t) + 4.

(** parser.rs 273-284 [Tokenizer::tokenize]. *)
Definition tokenize (input : str) : out (result (list (Token F)) (error F)) :=
  let t := tk_new input in
  match tokenize_loop (tk_fuel t) [] t with
  | Done (r, _) => Done r
  | Panic => Panic
  | OutOfFuel => OutOfFuel
  end.

End Tokenizer.
