(** Vocabulary about the texts of error messages. *)
From Verif Require Import Base TokModel LexSpec RenderModel.

(** [number_text w n]: [w] is [n] in decimal, without leading zeros. *)
Definition number_text (w : str) (n : nat) : Prop :=
  w <> [] /\ all_digits w /\ dec_val w = Z.of_nat n /\ forall w', w = c_0 :: w' -> w' = [].

(** [place_text w p]: [w] is the position [p], written as (row, column). *)
Definition place_text (w : str) (p : Pos) : Prop :=
  exists r c, number_text r (pos_r p) /\ number_text c (pos_c p) /\ w = s2l "(" ++ r ++ s2l ", " ++ c ++ s2l ")".

(** The texts without a position. *)
Definition placeless : list str := map s2l
  ["EOF"; "invalid digit found in string"; "number too large to fit in target type";
   "number too small to fit in target type"; "invalid float literal"; "parse_string(): EOF while processing string";
   "parse_identifier(): EOF while processing identifier";
   "parse_many_floats(): error while processing floats:
  parse_float(): EOF while parsing float"]%string.

(** In front of the position when a number was expected. *)
Definition many_prefix : string := "parse_many_floats(): error while processing floats:
  ".

(** What is asked of the two parts of the standard library left open: escaped characters can be told apart and do not
    contain an unescaped quote; different floats are written differently. *)
Record debug_ok {F : Type} (dd : DebugOps F) : Prop := {
  dk_char : forall c d x y, dbg_char dd c ++ x = dbg_char dd d ++ y -> c = d /\ x = y;
  dk_quote : forall c x y, dbg_char dd c ++ x <> c_quote :: y;
  dk_float : forall a b, dbg_float dd a = dbg_float dd b -> a = b }.

(** How an integer, a quoted string, a token, a message and an error are written. *)
Definition int_text (w : str) (z : Z) : Prop :=
  ((0 <= z)%Z /\ number_text w (Z.to_nat z)) \/ ((z < 0)%Z /\ exists w', w = c_minus :: w' /\ number_text w' (Z.to_nat (- z))).
Definition quoted {F} (dd : DebugOps F) (w s : str) : Prop :=
  w = s2l """" ++ concat (map (dbg_char dd) s) ++ s2l """".
Inductive token_text {F} (dd : DebugOps F) : str -> TokenType F -> Prop :=
| tt_ident : forall s w, quoted dd w s -> token_text dd (s2l "Identifier(" ++ w ++ s2l ")") (TIdent s)
| tt_str : forall s w, quoted dd w s -> token_text dd (s2l "Str(" ++ w ++ s2l ")") (TStr s)
| tt_int : forall z w, int_text w z -> token_text dd (s2l "Int(" ++ w ++ s2l ")") (TInt z)
| tt_float : forall x, token_text dd (s2l "Float(" ++ dbg_float dd x ++ s2l ")") (TFloat x)
| tt_lbr : token_text dd (s2l "LBracket") TLBracket
| tt_rbr : token_text dd (s2l "RBracket") TRBracket.
Inductive error_text {F} (dd : DebugOps F) : str -> error F -> Prop :=
| et_eof : error_text dd (s2l "EOF") EEof
| et_str : forall w m, msg_text dd w m -> error_text dd w (EStr m)
with msg_text {F} (dd : DebugOps F) : str -> list (piece F) -> Prop :=
| mt_nil : msg_text dd [] []
| mt_cons : forall w w' x m, piece_text dd w x -> msg_text dd w' m -> msg_text dd (w ++ w') (x :: m)
with piece_text {F} (dd : DebugOps F) : str -> piece F -> Prop :=
| pt_text : forall s, piece_text dd (s2l s) (PText s)
| pt_pos : forall w p, place_text w p -> piece_text dd w (PPos p)
| pt_char : forall c, piece_text dd [c] (PChar c)
| pt_string : forall s, piece_text dd s (PStr s)
| pt_quoted : forall w s, quoted dd w s -> piece_text dd w (PStrDbg s)
| pt_count : forall w n, number_text w n -> piece_text dd w (PNat n)
| pt_token : forall w t, token_text dd w t -> piece_text dd w (PTok t)
| pt_error : forall w e, error_text dd w e -> piece_text dd w (PErr e)
| pt_debug_eof : piece_text dd (s2l "Eof") (PErrDbg EEof)
| pt_debug : forall w w' m, msg_text dd w m -> quoted dd w' w -> piece_text dd (s2l "Str(" ++ w' ++ s2l ")") (PErrDbg (EStr m)).
