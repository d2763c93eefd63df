(** Model of the texts of error messages: parser.rs 12-16 [Display for Pos], 233-240 [Display for ParserError], the derived
    [Debug] of TokenType (195) and ParserError (227), and the [format!] of the pieces of a message.
    Texts are lists of characters. *)
From Coq Require Import Decimal.
From Verif Require Import Base TokModel.

(** Two parts of the standard library that depend on its version are arguments: how [{:?}] of a string writes one character
    (a table of printable characters is involved) and how [{:?}] writes a float. *)
Record DebugOps (F : Type) := mkDO { dbg_char : char -> str; dbg_float : F -> str }.
Arguments dbg_char {F}. Arguments dbg_float {F}.

(** [{}] of an unsigned and of a signed number: decimal digits without leading zeros, a minus sign in front. *)
Fixpoint fmt_digits (d : Decimal.uint) : str :=
  match d with
  | Decimal.Nil => []
  | Decimal.D0 d => 48%N :: fmt_digits d
  | Decimal.D1 d => 49%N :: fmt_digits d
  | Decimal.D2 d => 50%N :: fmt_digits d
  | Decimal.D3 d => 51%N :: fmt_digits d
  | Decimal.D4 d => 52%N :: fmt_digits d
  | Decimal.D5 d => 53%N :: fmt_digits d
  | Decimal.D6 d => 54%N :: fmt_digits d
  | Decimal.D7 d => 55%N :: fmt_digits d
  | Decimal.D8 d => 56%N :: fmt_digits d
  | Decimal.D9 d => 57%N :: fmt_digits d
  end.
Definition fmt_usize (n : nat) : str := fmt_digits (N.to_uint (N.of_nat n)).
Definition fmt_isize (z : Z) : str :=
  match z with
  | Zneg p => c_minus :: fmt_digits (Pos.to_uint p)
  | _ => fmt_digits (N.to_uint (Z.to_N z))
  end.

(** parser.rs 12-16 [Display for Pos]. *)
Definition fmt_pos (p : Pos) : str := s2l "(" ++ fmt_usize (pos_r p) ++ s2l ", " ++ fmt_usize (pos_c p) ++ s2l ")".

Section Render.
Context {F : Type} (dd : DebugOps F).

(** [{:?}] of a string: quotes around, each character escaped if necessary. *)
Definition dbg_str (s : str) : str := c_quote :: flat_map (dbg_char dd) s ++ [c_quote].

(** parser.rs 195-203 derived [Debug for TokenType]. *)
Definition dbg_token (t : TokenType F) : str :=
  match t with
  | TIdent s => s2l "Identifier(" ++ dbg_str s ++ s2l ")"
  | TInt i => s2l "Int(" ++ fmt_isize i ++ s2l ")"
  | TFloat f => s2l "Float(" ++ dbg_float dd f ++ s2l ")"
  | TStr s => s2l "Str(" ++ dbg_str s ++ s2l ")"
  | TLBracket => s2l "LBracket"
  | TRBracket => s2l "RBracket"
  end.

(** parser.rs 233-240 [Display for ParserError] and 227 derived [Debug for ParserError]; the text inside [Str] is the
    result of [format!], piece by piece. *)
Fixpoint fmt_error (e : error F) : str :=
  match e with
  | EStr m => (fix pieces (m : list (piece F)) : str :=
                 match m with [] => [] | x :: m' => fmt_piece x ++ pieces m' end) m
  | EEof => s2l "EOF"
  end
with fmt_piece (x : piece F) : str :=
  match x with
  | PText s => s2l s
  | PPos p => fmt_pos p
  | PChar c => [c]
  | PStr s => s
  | PStrDbg s => dbg_str s
  | PNat n => fmt_usize n
  | PTok t => dbg_token t
  | PErr e => fmt_error e
  | PErrDbg EEof => s2l "Eof"
  | PErrDbg e => s2l "Str(" ++ dbg_str (fmt_error e) ++ s2l ")"
  end.
Definition fmt_msg (m : list (piece F)) : str := flat_map fmt_piece m.

End Render.
