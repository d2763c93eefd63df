(** The tokenizer and the parser with every look at the input recorded: the functions of TokModel.v and ParModel.v, where
    [peek], [next] and [pos] (parser.rs 286-307, 530-557) write down the index they were called at. The newest entry is the
    first one. Nothing else differs. *)
From Verif Require Import Base TokModel ParModel.
Open Scope mon_scope.

(** A method that looks at the input at index [idx s], whatever comes of it. *)
Definition look {S A} (idx : S -> nat) (m : M S A) : M (S * list nat) A :=
  fun x => match m (fst x) with
           | Done (a, s') => Done (a, (s', idx (fst x) :: snd x))
           | Panic => Panic
           | OutOfFuel => OutOfFuel
           end.
(** A method that does not. *)
Definition unseen {S A} (m : M S A) : M (S * list nat) A :=
  fun x => match m (fst x) with
           | Done (a, s') => Done (a, (s', snd x))
           | Panic => Panic
           | OutOfFuel => OutOfFuel
           end.

Section Tok.
Context {F : Type} (fo : FloatOps F) (cc : CharClass) (chk : bool).
Notation TM A := (M (tokenizer * list nat) (result A (error F))).

(** parser.rs 286-292, 294-307 *)
Definition tk_peek_t : TM N := look tk_index tk_peek.
Definition tk_next_t : TM N := look tk_index tk_next.
Definition cur_pos_t : M (tokenizer * list nat) Pos := unseen cur_pos.
Definition cur_prev_t : M (tokenizer * list nat) Pos := unseen cur_prev.

(** parser.rs 361-373: sign handling at the start of [tokenize_num], followed by its loop [loop]. *)
Definition num_prelude_t (loop : Pos -> str -> bool -> TM (Token F)) : TM (Token F) :=
  start_pos <- cur_pos_t ;;
  r <- tk_peek_t ;;
  num_chars <- (match r with
                | Ok ch => if (ch =? c_minus)%N then (_ <- tk_next_t ;; ret [ch])
                           else if (ch =? c_plus)%N then (_ <- tk_next_t ;; ret [])
                           else ret []
                | Err _ => ret []
                end) ;;
  loop start_pos num_chars false.

(** parser.rs 374-434: the loop of [tokenize_num]; the recursive call of line 395 is [num_prelude] of the loop itself. *)
Fixpoint num_loop_t (fuel : nat) (start_pos : Pos) (num_chars : str) (is_float : bool) : TM (Token F) :=
  match fuel with
  | 0 => out_of_fuel
  | S n =>
      r <- tk_peek_t ;;
      match r with
      | Ok ch =>
          if is_numeric cc ch then
            c <-? tk_next_t ;; num_loop_t n start_pos (num_chars ++ [c]) is_float
          else if (ch =? c_dot)%N then
            if is_float then
              p <- cur_pos_t ;;
              ret (Err (EStr [PPos p; PText " tokenize_num(): unexpected char '"; PChar ch; PText "'"]))
            else
              c <-? tk_next_t ;; num_loop_t n start_pos (num_chars ++ [c]) true
          else if (ch =? c_e)%N then
            match num_chars with
            | [] => p <- cur_pos_t ;; ret (Err (no_number p))
            | _ =>
                _ <- tk_next_t ;;
                tok <-? num_prelude_t (num_loop_t n) ;;
                unseen (num_exponent fo chk start_pos num_chars is_float (tok_ty tok))
            end
          else unseen (num_finish fo start_pos num_chars is_float)
      | Err EEof => unseen (num_finish fo start_pos num_chars is_float)
      | Err err => ret (Err err)
      end
  end.

(** parser.rs 361-452 [Tokenizer::tokenize_num]. *)
Definition tokenize_num_t (fuel : nat) : TM (Token F) := num_prelude_t (num_loop_t fuel).

(** ** Strings *)

(** parser.rs 468-496: the loop of [tokenize_str]. *)
Fixpoint str_loop_t (fuel : nat) (start_pos : Pos) (str_chars : str) : TM (Token F) :=
  match fuel with
  | 0 => out_of_fuel
  | S n =>
      r <- tk_next_t ;;
      match r with
      | Ok ch =>
          if (ch =? c_bslash)%N then
            r2 <- tk_next_t ;;
            match r2 with
            | Ok ch2 => if (ch2 =? c_n)%N then str_loop_t n start_pos (str_chars ++ [c_lf])
                        else str_loop_t n start_pos (str_chars ++ [ch2])
            | Err EEof => p <- cur_prev_t ;;
                          ret (Err (EStr [PPos p; PText " tokenize_str(): EOF while processing escape seq"]))
            | Err err => ret (Err err)
            end
          else if (ch =? c_quote)%N then ret (Ok (mkTok start_pos (TStr str_chars)))
          else str_loop_t n start_pos (str_chars ++ [ch])
      | Err EEof => p <- cur_pos_t ;;
                    ret (Err (EStr [PPos p; PText " tokenize_str(): EOF while processing string"]))
      | Err err => ret (Err err)
      end
  end.

(** parser.rs 454-497 [Tokenizer::tokenize_str]. *)
Definition tokenize_str_t (fuel : nat) : TM (Token F) :=
  start_pos <- cur_pos_t ;;
  r <- tk_next_t ;;
  match r with
  | Ok _ => str_loop_t fuel start_pos []
  | Err EEof => p <- cur_pos_t ;;
                ret (Err (EStr [PPos p; PText " tokenize_str(): EOF while processing string"]))
  | Err err => ret (Err err)
  end.

(** ** Identifiers *)

(** parser.rs 502-508: the loop of [tokenize_id]. *)
Fixpoint id_loop_t (fuel : nat) (id_chars : str) : TM str :=
  match fuel with
  | 0 => out_of_fuel
  | S n =>
      r <- tk_peek_t ;;
      match r with
      | Ok ch => if is_alphanumeric cc ch
                 then c <-? tk_next_t ;; id_loop_t n (id_chars ++ [c])
                 else ret (Ok id_chars)
      | Err EEof => ret (Ok id_chars)
      | Err err => ret (Err err)
      end
  end.

(** parser.rs 499-519 [Tokenizer::tokenize_id]. *)
Definition tokenize_id_t (fuel : nat) : TM (Token F) :=
  start_pos <- cur_pos_t ;;
  c <-? tk_next_t ;;
  id_chars <-? id_loop_t fuel [c] ;;
  match id_chars with
  | [] => p <- cur_pos_t ;; ret (Err (EStr [PPos p; PText " tokenize_id(): no identifier"]))
  | _ => ret (Ok (mkTok start_pos (TIdent id_chars)))
  end.

(** ** One token *)

(** parser.rs 316-320: skip a comment up to and including the line feed. *)
Fixpoint skip_comment_t (fuel : nat) : M (tokenizer * list nat) unit :=
  match fuel with
  | 0 => out_of_fuel
  | S n => r <- tk_next_t ;;
           match r with
           | Ok ch => if (ch =? c_lf)%N then ret tt else skip_comment_t n
           | Err _ => ret tt
           end
  end.

(** parser.rs 342-349: skip white space. *)
Fixpoint skip_ws_t (fuel : nat) : TM unit :=
  match fuel with
  | 0 => out_of_fuel
  | S n => r <- tk_peek_t ;;
           match r with
           | Ok ch => if is_whitespace ch then (_ <-? tk_next_t ;; skip_ws_t n) else ret (Ok tt)
           | Err _ => ret (Ok tt)
           end
  end.

(** parser.rs 313-359 [Tokenizer::tokenize_one]. *)
Fixpoint tokenize_one_t (fuel : nat) : TM (Token F) :=
  match fuel with
  | 0 => out_of_fuel
  | S n =>
      r <- tk_peek_t ;;
      match r with
      | Ok c =>
          if (c =? c_hash)%N then _ <- skip_comment_t n ;; tokenize_one_t n
          else if (c =? c_quote)%N then tokenize_str_t n
          else if (c =? c_lbrack)%N then
            p <- cur_pos_t ;; _ <- tk_next_t ;; ret (Ok (mkTok p TLBracket))
          else if (c =? c_rbrack)%N then
            p <- cur_pos_t ;; _ <- tk_next_t ;; ret (Ok (mkTok p TRBracket))
          else if starts_num cc c then tokenize_num_t n
          else if is_whitespace c then _ <-? skip_ws_t n ;; tokenize_one_t n
          else if is_alphabetic cc c then tokenize_id_t n
          else p <- cur_pos_t ;;
               ret (Err (EStr [PPos p; PText " tokenize_one(): unexpected char '"; PChar c; PText "'"]))
      | Err err => ret (Err err)
      end
  end.

(** parser.rs 276-283: the loop of [Tokenizer::tokenize]. *)
Fixpoint tokenize_loop_t (fuel : nat) (tokens : list (Token F)) : TM (list (Token F)) :=
  match fuel with
  | 0 => out_of_fuel
  | S n =>
      t <- unseen get ;;
      if negb (tk_is_empty t) then
        r <- tokenize_one_t n ;;
        match r with
        | Ok tok => tokenize_loop_t n (tokens ++ [tok])
        | Err EEof => ret (Ok tokens)
        | Err err => ret (Err err)
        end
      else ret (Ok tokens)
  end.

(** parser.rs 273-284 [Tokenizer::tokenize]: the result and the record. *)
Definition tokenize_t (input : str) : out (result (list (Token F)) (error F) * list nat) :=
  let t := tk_new input in
  match tokenize_loop_t (tk_fuel t) [] (t, []) with
  | Done (r, x) => Done (r, snd x)
  | Panic => Panic
  | OutOfFuel => OutOfFuel
  end.
End Tok.

Section Par.
Context {F : Type} (fo : FloatOps F).
Notation PM A := (M (@parser F * list nat) (result A (error F))).

(** parser.rs 530-536, 538-545, 551-557 *)
Definition pr_peek_t : PM (Token F) := look pr_index pr_peek.
Definition pr_next_t : PM (Token F) := look pr_index pr_next.
Definition pr_pos_t : PM Pos := look pr_index pr_pos.
Definition set_index_t (i : nat) : M (@parser F * list nat) unit := unseen (set_index i).
Definition vidx_t {A} (v : list A) (i : nat) : M (@parser F * list nat) A := unseen (vidx v i).

(** parser.rs 823-841 [Parser::parse_int]. *)
Definition parse_int_t : PM Z :=
  r <- pr_peek_t ;;
  match r with
  | Ok (mkTok pos ty) =>
      match ty with
      | TInt i => _ <- pr_next_t ;; ret (Ok i)
      | _ => ret (Err (EStr [PPos pos; PText " parse_int(): expected int but got "; PTok ty]))
      end
  | Err EEof => ret (Err (EStr [PText "parse_int(): EOF while parsing int"]))
  | Err e => ret (Err e)
  end.

(** parser.rs 843-861 [Parser::parse_string]. *)
Definition parse_string_t : PM str :=
  r <- pr_peek_t ;;
  match r with
  | Ok (mkTok pos ty) =>
      match ty with
      | TStr s => _ <- pr_next_t ;; ret (Ok s)
      | _ => ret (Err (EStr [PPos pos; PText " parse_string(): expected string but got "; PTok ty]))
      end
  | Err EEof => ret (Err (EStr [PText "parse_string(): EOF while processing string"]))
  | Err e => ret (Err e)
  end.

(** parser.rs 863-881 [Parser::parse_identifier]. *)
Definition parse_identifier_t : PM str :=
  r <- pr_peek_t ;;
  match r with
  | Ok (mkTok pos ty) =>
      match ty with
      | TIdent s => _ <- pr_next_t ;; ret (Ok s)
      | _ => ret (Err (EStr [PPos pos; PText " parse_identifier(): expected identifier but got "; PTok ty]))
      end
  | Err EEof => ret (Err (EStr [PText "parse_identifier(): EOF while processing identifier"]))
  | Err e => ret (Err e)
  end.

(** parser.rs 883-911 [Parser::parse_bool]. *)
Definition parse_bool_t : PM bool :=
  r <- pr_peek_t ;;
  match r with
  | Ok (mkTok pos ty) =>
      match ty with
      | TStr s =>
          if str_eqb s (s2l "true") then _ <-? pr_next_t ;; ret (Ok true)
          else if str_eqb s (s2l "false") then _ <-? pr_next_t ;; ret (Ok false)
          else ret (Err (EStr [PPos pos; PText " parse_bool(): expected bool but got "; PStrDbg s]))
      | _ => ret (Err (EStr [PPos pos; PText " parse_bool(): expected int but got "; PTok ty]))
      end
  | Err EEof => ret (Err (EStr [PText "parse_bool(): EOF while parsing bool"]))
  | Err e => ret (Err e)
  end.

(** parser.rs 913-938 [Parser::parse_float]. *)
Definition parse_float_t : PM F :=
  r <- pr_peek_t ;;
  match r with
  | Ok (mkTok pos ty) =>
      match ty with
      | TFloat f => _ <-? pr_next_t ;; ret (Ok f)
      | TInt i => _ <-? pr_next_t ;; ret (Ok (f_of_isize fo i))
      | _ => ret (Err (EStr [PPos pos; PText " parse_float(): expected float but got "; PTok ty]))
      end
  | Err EEof => ret (Err (EStr [PText "parse_float(): EOF while parsing float"]))
  | Err e => ret (Err e)
  end.

(** parser.rs 949-965: the loop of [parse_many]. *)
Fixpoint parse_many_loop_t {T} (p : PM T) (name : string) (fuel : nat) (values : list T) : PM (list T) :=
  match fuel with
  | 0 => out_of_fuel
  | S n =>
      r <- p ;;
      match r with
      | Ok i => parse_many_loop_t p name n (values ++ [i])
      | Err e =>
          match values with
          | [] => ret (Err (EStr [PText "parse_many_"; PText name; PText "s(): error while processing ";
                                  PText name; PText "s:
  "; PErr e]))
          | _ => ret (Ok values)
          end
      end
  end.

(** parser.rs 944-966 [Parser::parse_many]. *)
Definition parse_many_t {T} (p : PM T) (name : string) : PM (list T) :=
  st <- unseen get ;; parse_many_loop_t p name (pr_fuel st) [].

(** parser.rs 940-942 [Parser::parse_floats]. *)
Definition parse_floats_t : PM (list F) := parse_many_t parse_float_t "float".

(** parser.rs 977-991: the loop of [parse_n]; [n] is the value of the argument (for the message), [k] iterations remain. *)
Fixpoint parse_n_loop_t {T} (p : PM T) (n : nat) (name : string) (start_index : nat) (k : nat) (values : list T)
  : PM (list T) :=
  match k with
  | 0 => ret (Ok values)
  | S k' =>
      r <- p ;;
      match r with
      | Ok i => parse_n_loop_t p n name start_index k' (values ++ [i])
      | Err e =>
          _ <- set_index_t start_index ;;
          ret (Err (EStr [PText "parse_"; PNat n; PText "_"; PText name; PText "s(): error while processing ";
                          PText name; PText "s:
  "; PErrDbg e]))
      end
  end.

(** parser.rs 968-992 [Parser::parse_n], with its assertion. *)
Definition parse_n_t {T} (p : PM T) (n : nat) (name : string) : PM (list T) :=
  if 0 <? n then
    st <- unseen get ;; parse_n_loop_t p n name (pr_index st) n []
  else panic.

(** parser.rs 692-744 [Parser::parse_list]. *)
Definition parse_list_t {T} (p : PM T) (name : string) : PM (list T) :=
  r <- pr_peek_t ;;
  match r with
  | Ok (mkTok start_pos ty0) =>
      match ty0 with
      | TLBracket =>
          _ <- pr_next_t ;;
          values <-? parse_many_t p name ;;
          r2 <- pr_peek_t ;;
          match r2 with
          | Ok (mkTok pos ty) =>
              match ty with
              | TRBracket =>
                  match values with
                  | [] => ret (Err (EStr [PPos start_pos; PText " parse_list_"; PText name; PText "(): parsed empty list"]))
                  | _ => _ <-? pr_next_t ;; ret (Ok values)
                  end
              | _ => ret (Err (EStr [PPos pos; PText " parse_list_"; PText name; PText "(): expected ']' but got "; PTok ty]))
              end
          | Err EEof => ret (Err (EStr [PText "parse_list_"; PText name; PText "(): EOF while processing list"]))
          | Err e => ret (Err e)
          end
      | _ => ret (Err (EStr [PPos start_pos; PText " parse_list_"; PText name; PText "(): expected '[' but got "; PTok ty0]))
      end
  | Err EEof => ret (Err (EStr [PText "parse_list_"; PText name; PText "(): EOF while processing list"]))
  | Err e => ret (Err e)
  end.

(** parser.rs 746-802 [Parser::parse_list_of_n]. *)
Definition parse_list_of_n_t {T} (p : PM T) (n : nat) (name : string) : PM (list T) :=
  r <- pr_peek_t ;;
  match r with
  | Ok (mkTok start_pos ty0) =>
      match ty0 with
      | TLBracket =>
          _ <- pr_next_t ;;
          values <-? parse_n_t p n name ;;
          r2 <- pr_peek_t ;;
          match r2 with
          | Ok (mkTok pos ty) =>
              match ty with
              | TRBracket =>
                  match values with
                  | [] => ret (Err (EStr [PPos start_pos; PText " parse_list_of_"; PNat n; PText "_"; PText name; PText "s(): parsed empty list"]))
                  | _ => _ <-? pr_next_t ;; ret (Ok values)
                  end
              | _ => ret (Err (EStr [PPos pos; PText " parse_list_of_"; PNat n; PText "_"; PText name; PText "s(): expected ']' but got "; PTok ty]))
              end
          | Err EEof => ret (Err (EStr [PText "parse_list_of_n_"; PText name; PText "s(): EOF while processing list"]))
          | Err e => ret (Err e)
          end
      | _ => ret (Err (EStr [PPos start_pos; PText " parse_list_of_n_"; PText name; PText "s(): expected '[' but got "; PTok ty0]))
      end
  | Err EEof => ret (Err (EStr [PText "parse_list_of_n_"; PText name; PText "(): EOF while processing list"]))
  | Err e => ret (Err e)
  end.

(** parser.rs 804-821 [Parser::parse_one_or_list]. *)
Definition parse_one_or_list_t {T} (p : PM T) (name : string) : PM (list T) :=
  r <- pr_peek_t ;;
  match r with
  | Ok (mkTok _ ty) =>
      match ty with
      | TLBracket => parse_list_t p name
      | _ => v <-? p ;; ret (Ok [v])
      end
  | Err EEof => ret (Err (EStr [PText "parse_one_or_list_"; PText name; PText "(): EOF while processing list"]))
  | Err e => ret (Err e)
  end.

(** parser.rs 994-997 [Parser::parse_point2f]. *)
Definition parse_point2f_t : PM (Point2f F) :=
  floats <-? parse_n_t parse_float_t 2 "float" ;;
  a <- vidx_t floats 0 ;; b <- vidx_t floats 1 ;;
  ret (Ok (mkP2 a b)).

(** parser.rs 999-1002 [Parser::parse_vector2f]. *)
Definition parse_vector2f_t : PM (Vector2f F) :=
  floats <-? parse_n_t parse_float_t 2 "float" ;;
  a <- vidx_t floats 0 ;; b <- vidx_t floats 1 ;;
  ret (Ok (mkV2 a b)).

(** parser.rs 1321-1356 [Parser::parse_spectrum]. *)
Definition parse_spectrum_t : PM (Spectrum F) :=
  r <- pr_peek_t ;;
  match r with
  | Ok (mkTok pos ty) =>
      match ty with
      | TLBracket =>
          floats <-? parse_list_t parse_float_t "float" ;;
          if negb (Nat.eqb (Nat.modulo (List.length floats) 2) 0) then
            ret (Err (EStr [PPos pos; PText " parse_spectrum(): Expected an even number of floats but got "; PNat (List.length floats)]))
          else
            l <- lift (chunks2 floats) ;; ret (Ok (SpSpectrum l))
      | TStr s => _ <-? pr_next_t ;; ret (Ok (SpFile s))
      | _ => ret (Err (EStr [PPos pos; PText " parse_spectrum(): expected '[' or string but got "; PTok ty]))
      end
  | Err EEof => ret (Err (EStr [PText "parse_spectrum(): EOF while processing spectrum"]))
  | Err e => ret (Err e)
  end.

(** parser.rs 568-689 [Parser::parse_param_list]. The [&mut ParamSet] argument becomes an argument and a result;
    every [?] is evaluated before the [push], so on [Err] the set is unchanged and only [Ok] returns it. *)
Definition parse_param_list_t (ps : ParamSet F) : PM (ParamSet F) :=
  r <- pr_peek_t ;;
  match r with
  | Ok (mkTok pos tyt) =>
      match tyt with
      | TStr s =>
          match split_whitespace s with
          | [ty; var] =>
              if str_eqb ty (s2l "integer") then
                _ <-? pr_next_t ;;
                v <-? parse_one_or_list_t parse_int_t "int" ;;
                ret (Ok (ps_push_int ps (mkParam var pos v)))
              else if str_eqb ty (s2l "float") then
                _ <-? pr_next_t ;;
                v <-? parse_one_or_list_t parse_float_t "float" ;;
                ret (Ok (ps_push_float ps (mkParam var pos v)))
              else if str_eqb ty (s2l "point2") then
                _ <-? pr_next_t ;;
                v <-? parse_list_t parse_point2f_t "point2f" ;;
                ret (Ok (ps_push_point2 ps (mkParam var pos v)))
              else if str_eqb ty (s2l "vector2") then
                _ <-? pr_next_t ;;
                v <-? parse_list_t parse_vector2f_t "vector2f" ;;
                ret (Ok (ps_push_vector2 ps (mkParam var pos v)))
              else if str_eqb ty (s2l "bool") then
                _ <-? pr_next_t ;;
                v <-? parse_one_or_list_t parse_bool_t "bool" ;;
                ret (Ok (ps_push_bool ps (mkParam var pos v)))
              else if str_eqb ty (s2l "string") then
                _ <-? pr_next_t ;;
                v <-? parse_one_or_list_t parse_string_t "string" ;;
                ret (Ok (ps_push_string ps (mkParam var pos v)))
              else if str_eqb ty (s2l "rgb") then
                _ <-? pr_next_t ;;
                rgb <-? parse_list_of_n_t parse_float_t 3 "float" ;;
                a <- vidx_t rgb 0 ;; b <- vidx_t rgb 1 ;; c <- vidx_t rgb 2 ;;
                ret (Ok (ps_push_spectrum ps (mkParam var pos [SpRgb a b c])))
              else if str_eqb ty (s2l "xyz") then
                _ <-? pr_next_t ;;
                rgb <-? parse_list_of_n_t parse_float_t 3 "float" ;;
                a <- vidx_t rgb 0 ;; b <- vidx_t rgb 1 ;; c <- vidx_t rgb 2 ;;
                ret (Ok (ps_push_spectrum ps (mkParam var pos [SpXyz a b c])))
              else if str_eqb ty (s2l "spectrum") then
                _ <-? pr_next_t ;;
                sp <-? parse_spectrum_t ;;
                ret (Ok (ps_push_spectrum ps (mkParam var pos [sp])))
              else if str_eqb ty (s2l "blackbody") then
                _ <-? pr_next_t ;;
                rgb <-? parse_list_of_n_t parse_float_t 2 "float" ;;
                a <- vidx_t rgb 0 ;; b <- vidx_t rgb 1 ;;
                ret (Ok (ps_push_spectrum ps (mkParam var pos [SpBlackbody a b])))
              else if str_eqb ty (s2l "texture") then
                _ <-? pr_next_t ;;
                t <-? parse_string_t ;;
                ret (Ok (ps_push_texture ps (mkParam var pos [t])))
              else
                ret (Err (EStr [PPos pos; PText " parse_param_list(): expecting a type but got "; PStr ty]))
          | _ => ret (Err (EStr [PPos pos; PText " parse_param_list(): expecting a string with two arguments but got "; PStr s]))
          end
      | _ => ret (Err (EStr [PPos pos; PText " parse_param_list(): expected param list, got "; PTok tyt]))
      end
  | Err EEof => ret (Err (EStr [PText "parse_param_list(): EOF while processing param list"]))
  | Err e => ret (Err e)
  end.

(** parser.rs 564: [while self.parse_param_list(param_set).is_ok() {}]; errors are swallowed,
    the parser stays where the failed attempt left it. *)
Fixpoint parse_param_lists_loop_t (fuel : nat) (ps : ParamSet F) : M (@parser F * list nat) (ParamSet F) :=
  match fuel with
  | 0 => out_of_fuel
  | S n => r <- parse_param_list_t ps ;;
           match r with
           | Ok ps' => parse_param_lists_loop_t n ps'
           | Err _ => ret ps
           end
  end.

(** parser.rs 563-566 [Parser::parse_param_lists]. *)
Definition parse_param_lists_t (ps : ParamSet F) : PM (ParamSet F) :=
  st <- unseen get ;; ps' <- parse_param_lists_loop_t (pr_fuel st) ps ;; ret (Ok ps').

(** The shared shape of parser.rs 1009-1044 and 1232-1285: a string, then parameters. *)
Definition parse_struct_t (start_pos : Pos) : PM (DirectiveStruct F) :=
  ty <-? parse_string_t ;;
  ps <-? parse_param_lists_t ps_empty ;;
  ret (Ok (mkDS ty start_pos ps)).

(** parser.rs 1004-1079 [Parser::parse_directive]; [block] stands for [self.parse_directives()]. *)
Definition parse_directive_body_t (block : PM (list (Directive F))) : PM (Directive F) :=
  start_pos <-? pr_pos_t ;;
  id <-? parse_identifier_t ;;
  if str_eqb id (s2l "Material") then d <-? parse_struct_t start_pos ;; ret (Ok (DMaterial d))
  else if str_eqb id (s2l "Shape") then d <-? parse_struct_t start_pos ;; ret (Ok (DShape d))
  else if str_eqb id (s2l "LightSource") then d <-? parse_struct_t start_pos ;; ret (Ok (DLightSource d))
  else if str_eqb id (s2l "AreaLightSource") then d <-? parse_struct_t start_pos ;; ret (Ok (DAreaLightSource d))
  else if str_eqb id (s2l "AttributeBegin") then ch <-? block ;; ret (Ok (DAttribute start_pos ch))
  else if str_eqb id (s2l "TransformBegin") then ch <-? block ;; ret (Ok (DTransform start_pos ch))
  else if str_eqb id (s2l "WorldBegin") then ch <-? block ;; ret (Ok (DWorld start_pos ch))
  else if str_eqb id (s2l "Include") then s <-? parse_string_t ;; ret (Ok (DInclude start_pos s))
  else if str_eqb id (s2l "Texture") then
    name <-? parse_string_t ;;
    ty <-? parse_string_t ;;
    class <-? parse_string_t ;;
    ps <-? parse_param_lists_t ps_empty ;;
    ret (Ok (DTexture (mkTS name ty class start_pos ps)))
  else ret (Err (EStr [PPos start_pos; PText " parse_directive(): unknown identifier "; PStr id])).

(** parser.rs 1081-1103 [Parser::parse_directives] (the loop, with its accumulator). *)
Fixpoint parse_directives_loop_t (fuel : nat) (directives : list (Directive F)) : PM (list (Directive F)) :=
  match fuel with
  | 0 => out_of_fuel
  | S n =>
      t <-? pr_peek_t ;;
      match tok_ty t with
      | TIdent s =>
          if is_closer s then ret (Ok directives)
          else d <-? parse_directive_body_t (parse_directives_loop_t n []) ;;
               parse_directives_loop_t n (directives ++ [d])
      | ty => ret (Err (EStr [PPos (tok_pos t); PText " parse_directives(): expected identifier or block close but got "; PTok ty]))
      end
  end.

Definition parse_directives_t : PM (list (Directive F)) :=
  st <- unseen get ;; parse_directives_loop_t (pr_fuel st) [].

Definition parse_directive_t : PM (Directive F) := parse_directive_body_t parse_directives_t.

(** [Vector3f::new(floats[i], floats[i+1], floats[i+2])]. *)
Definition vec3_at_t (floats : list F) (i : nat) : M (@parser F * list nat) (Vector3f F) :=
  a <- vidx_t floats i ;; b <- vidx_t floats (i + 1) ;; c <- vidx_t floats (i + 2) ;; ret (mkV3 a b c).

(** parser.rs 1164-1168 (and 1190-1194, 1208-1212): nine floats, row by row. *)
Definition mat3_of_t (fl : list F) : M (@parser F * list nat) (Matrix3f F) :=
  a <- vidx_t fl 0 ;; b <- vidx_t fl 1 ;; c <- vidx_t fl 2 ;;
  d <- vidx_t fl 3 ;; e <- vidx_t fl 4 ;; f <- vidx_t fl 5 ;;
  g <- vidx_t fl 6 ;; h <- vidx_t fl 7 ;; i <- vidx_t fl 8 ;;
  ret (mkM3 (a, b, c) (d, e, f) (g, h, i)).

(** parser.rs 1111-1118 and the like: [parse_floats] followed by the length check. *)
Definition floats_exactly_t (start_pos : Pos) (what : string) (n : nat) : PM (list F) :=
  floats <-? parse_floats_t ;;
  if negb (Nat.eqb (List.length floats) n) then
    ret (Err (EStr [PPos start_pos; PText " parse_predirective(): "; PText what; PText " expects "; PNat n;
                    PText " floats but was given "; PNat (List.length floats)]))
  else ret (Ok floats).

(** parser.rs 1105-1295 [Parser::parse_predirective]. *)
Definition parse_predirective_t : PM (PreDirective F) :=
  start_pos <-? pr_pos_t ;;
  id <-? parse_identifier_t ;;
  if str_eqb id (s2l "Identity") then ret (Ok (PIdentity start_pos))
  else if str_eqb id (s2l "Translate") then
    fl <-? floats_exactly_t start_pos "Translate" 3 ;; v <- vec3_at_t fl 0 ;; ret (Ok (PTranslate start_pos v))
  else if str_eqb id (s2l "Scale") then
    fl <-? floats_exactly_t start_pos "Scale" 3 ;; v <- vec3_at_t fl 0 ;; ret (Ok (PScale start_pos v))
  else if str_eqb id (s2l "Rotate") then
    fl <-? floats_exactly_t start_pos "Rotate" 4 ;;
    a <- vidx_t fl 0 ;; v <- vec3_at_t fl 1 ;; ret (Ok (PRotate start_pos a v))
  else if str_eqb id (s2l "LookAt") then
    fl <-? floats_exactly_t start_pos "LookAt" 9 ;; m <- mat3_of_t fl ;; ret (Ok (PLookAt start_pos m))
  else if str_eqb id (s2l "CoordinateSystem") then
    s <-? parse_string_t ;; ret (Ok (PCoordinateSystem start_pos s))
  else if str_eqb id (s2l "CoordSysTransform") then
    s <-? parse_string_t ;; ret (Ok (PCoordSysTransform start_pos s))
  else if str_eqb id (s2l "Transform") then
    fl <-? floats_exactly_t start_pos "Transform" 9 ;; m <- mat3_of_t fl ;; ret (Ok (PTransform start_pos m))
  else if str_eqb id (s2l "ConcatTransform") then
    fl <-? floats_exactly_t start_pos "ConcatTransform" 9 ;; m <- mat3_of_t fl ;; ret (Ok (PConcatTransform start_pos m))
  else if str_eqb id (s2l "ActiveTransform") then
    s <-? parse_identifier_t ;; ret (Ok (PActiveTransform start_pos s))
  else if str_eqb id (s2l "TransformTimes") then
    fl <-? floats_exactly_t start_pos "TransformTimes" 2 ;;
    a <- vidx_t fl 0 ;; b <- vidx_t fl 1 ;; ret (Ok (PTransformTimes start_pos a b))
  else if str_eqb id (s2l "Camera") then d <-? parse_struct_t start_pos ;; ret (Ok (PCamera d))
  else if str_eqb id (s2l "Sampler") then d <-? parse_struct_t start_pos ;; ret (Ok (PSampler d))
  else if str_eqb id (s2l "Film") then d <-? parse_struct_t start_pos ;; ret (Ok (PFilm d))
  else if str_eqb id (s2l "Filter") then d <-? parse_struct_t start_pos ;; ret (Ok (PFilter d))
  else if str_eqb id (s2l "Integrator") then d <-? parse_struct_t start_pos ;; ret (Ok (PIntegrator d))
  else if str_eqb id (s2l "Accelerator") then d <-? parse_struct_t start_pos ;; ret (Ok (PAccelerator d))
  else if str_eqb id (s2l "Include") then s <-? parse_string_t ;; ret (Ok (PInclude start_pos s))
  else ret (Err (EStr [PPos start_pos; PText " parse_predirective(): Unknown predirective: "; PStr id])).

(** parser.rs 1297-1319 [Parser::parse_predirectives] (the loop, with its accumulator). *)
Fixpoint parse_predirectives_loop_t (fuel : nat) (predirectives : list (PreDirective F)) : PM (list (PreDirective F)) :=
  match fuel with
  | 0 => out_of_fuel
  | S n =>
      t <-? pr_peek_t ;;
      match tok_ty t with
      | TIdent s =>
          if str_eqb s (s2l "WorldBegin") then ret (Ok predirectives)
          else d <-? parse_predirective_t ;; parse_predirectives_loop_t n (predirectives ++ [d])
      | ty => ret (Err (EStr [PPos (tok_pos t); PText " parse_predirectives(): expected predirective but got "; PTok ty]))
      end
  end.

Definition parse_predirectives_t : PM (list (PreDirective F)) :=
  st <- unseen get ;; parse_predirectives_loop_t (pr_fuel st) [].

(** parser.rs 1360: the two parsing phases on the token list of [Parser::new]. *)
Definition parse_tokens_m_t : PM (list (PreDirective F) * Directive F) :=
  pres <-? parse_predirectives_t ;;
  d <-? parse_directive_t ;;
  ret (Ok (pres, d)).

Definition parse_tokens_t (toks : list (Token F)) : out (result (list (PreDirective F) * Directive F) (error F) * list nat) :=
  match parse_tokens_m_t (mkPr toks 0, []) with
  | Done (r, x) => Done (r, snd x)
  | Panic => Panic
  | OutOfFuel => OutOfFuel
  end.

(** parser.rs 1358-1361 [Parser::parse]: the result, the record of the tokenizer and that of the parser. *)
Definition parse_t (cc : CharClass) (chk : bool) (input : str)
  : out (result (list (PreDirective F) * Directive F) (error F) * list nat * list nat) :=
  match tokenize_t fo cc chk input with
  | Done (Ok toks, l) =>
      match parse_tokens_t toks with
      | Done (r, l') => Done (r, l, l')
      | Panic => Panic
      | OutOfFuel => OutOfFuel
      end
  | Done (Err e, l) => Done (Err (parser_error_of e), l, [])
  | Panic => Panic
  | OutOfFuel => OutOfFuel
  end.
End Par.
