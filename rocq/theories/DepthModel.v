(** The tokenizer and the parser running on a bounded stack: the functions of TokModel.v and ParModel.v with the recursive
    calls of the Rust code (parser.rs 321 and 350 [tokenize_one], 395 [tokenize_num], 1047, 1051 and 1055 [parse_directives])
    counted. [depth] is the number of nested recursive calls that are allowed; one more is a stack overflow, [OutOfFuel].
    Nothing else differs; loops keep their own fuel. *)
From Verif Require Import Base TokModel ParModel.
Open Scope mon_scope.

Definition deeper {S A} (depth : nat) (call : nat -> M S A) : M S A :=
  match depth with 0 => out_of_fuel | S d => call d end.

Section Tok.
Context {F : Type} (fo : FloatOps F) (cc : CharClass) (chk : bool).
Notation TM A := (M tokenizer (result A (error F))).

(** parser.rs 374-434 *)
Fixpoint num_loop_d (depth fuel : nat) (start_pos : Pos) (num_chars : str) (is_float : bool) {struct fuel} : TM (Token F) :=
  match fuel with
  | 0 => out_of_fuel
  | S n =>
      r <- tk_peek ;;
      match r with
      | Ok ch =>
          if is_numeric cc ch then
            c <-? tk_next ;; num_loop_d depth n start_pos (num_chars ++ [c]) is_float
          else if (ch =? c_dot)%N then
            if is_float then
              p <- cur_pos ;;
              ret (Err (EStr [PPos p; PText " tokenize_num(): unexpected char '"; PChar ch; PText "'"]))
            else
              c <-? tk_next ;; num_loop_d depth n start_pos (num_chars ++ [c]) true
          else if (ch =? c_e)%N then
            match num_chars with
            | [] => p <- cur_pos ;; ret (Err (no_number p))
            | _ =>
                _ <- @tk_next F ;;
                tok <-? deeper depth (fun d => num_prelude (num_loop_d d n)) ;;
                num_exponent fo chk start_pos num_chars is_float (tok_ty tok)
            end
          else num_finish fo start_pos num_chars is_float
      | Err EEof => num_finish fo start_pos num_chars is_float
      | Err err => ret (Err err)
      end
  end.

(** parser.rs 313-359 *)
Fixpoint tokenize_one_d (depth fuel : nat) {struct fuel} : TM (Token F) :=
  match fuel with
  | 0 => out_of_fuel
  | S n =>
      r <- tk_peek ;;
      match r with
      | Ok c =>
          if (c =? c_hash)%N then _ <- @skip_comment F n ;; deeper depth (fun d => tokenize_one_d d n)
          else if (c =? c_quote)%N then tokenize_str n
          else if (c =? c_lbrack)%N then
            p <- cur_pos ;; _ <- @tk_next F ;; ret (Ok (mkTok p TLBracket))
          else if (c =? c_rbrack)%N then
            p <- cur_pos ;; _ <- @tk_next F ;; ret (Ok (mkTok p TRBracket))
          else if starts_num cc c then num_prelude (num_loop_d depth n)
          else if is_whitespace c then _ <-? skip_ws n ;; deeper depth (fun d => tokenize_one_d d n)
          else if is_alphabetic cc c then tokenize_id cc n
          else p <- cur_pos ;;
               ret (Err (EStr [PPos p; PText " tokenize_one(): unexpected char '"; PChar c; PText "'"]))
      | Err err => ret (Err err)
      end
  end.

(** parser.rs 273-284 *)
Fixpoint tokenize_loop_d (depth fuel : nat) (tokens : list (Token F)) {struct fuel} : TM (list (Token F)) :=
  match fuel with
  | 0 => out_of_fuel
  | S n =>
      t <- get ;;
      if negb (tk_is_empty t) then
        r <- tokenize_one_d depth n ;;
        match r with
        | Ok tok => tokenize_loop_d depth n (tokens ++ [tok])
        | Err EEof => ret (Ok tokens)
        | Err err => ret (Err err)
        end
      else ret (Ok tokens)
  end.
Definition tokenize_d (depth : nat) (input : str) : out (result (list (Token F)) (error F)) :=
  let t := tk_new input in
  match tokenize_loop_d depth (tk_fuel t) [] t with
  | Done (r, _) => Done r
  | Panic => Panic
  | OutOfFuel => OutOfFuel
  end.
End Tok.

Section Par.
Context {F : Type} (fo : FloatOps F).
Notation PM A := (M (@parser F) (result A (error F))).

(** parser.rs 1081-1103 *)
Fixpoint parse_directives_loop_d (depth fuel : nat) (directives : list (Directive F)) {struct fuel} : PM (list (Directive F)) :=
  match fuel with
  | 0 => out_of_fuel
  | S n =>
      t <-? pr_peek ;;
      match tok_ty t with
      | TIdent s =>
          if is_closer s then ret (Ok directives)
          else d <-? parse_directive_body fo (deeper depth (fun k => parse_directives_loop_d k n [])) ;;
               parse_directives_loop_d depth n (directives ++ [d])
      | ty => ret (Err (EStr [PPos (tok_pos t); PText " parse_directives(): expected identifier or block close but got "; PTok ty]))
      end
  end.
Definition parse_directive_d (depth : nat) : PM (Directive F) :=
  parse_directive_body fo (deeper depth (fun k => st <- get ;; parse_directives_loop_d k (pr_fuel st) [])).
Definition parse_tokens_d (depth : nat) (toks : list (Token F)) : out (result (list (PreDirective F) * Directive F) (error F)) :=
  match (pres <-? parse_predirectives fo ;; d <-? parse_directive_d depth ;; ret (Ok (pres, d))) (mkPr toks 0) with
  | Done (r, _) => Done r
  | Panic => Panic
  | OutOfFuel => OutOfFuel
  end.
(** parser.rs 1358-1361 *)
Definition parse_d (cc : CharClass) (chk : bool) (depth : nat) (input : str) : out (result (list (PreDirective F) * Directive F) (error F)) :=
  match tokenize_d fo cc chk depth input with
  | Done (Ok toks) => parse_tokens_d depth toks
  | Done (Err e) => Done (Err (parser_error_of e))
  | Panic => Panic
  | OutOfFuel => OutOfFuel
  end.
End Par.
