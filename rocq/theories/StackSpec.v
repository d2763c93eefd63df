(** How many nested calls reading a text takes. Nothing here refers to the functions of the model; the data types and the
    lexical grammar of LexSpec.v are shared. *)
From Verif Require Import Base TokModel ParModel LexSpec.

(** The blocks around the innermost directive: 1 for a world without blocks. *)
Fixpoint block_height {F} (d : Directive F) : nat :=
  match d with
  | DAttribute _ l | DTransform _ l | DWorld _ l => S (list_max (map block_height l))
  | _ => 0
  end.

(** The 'e's of a number; no other token has exponents. *)
Definition exponents {F} (text : str) (ty : TokenType F) : nat :=
  match ty with TInt _ | TFloat _ => count_occ N.eq_dec text c_e | _ => 0 end.

Section S.
Context {F : Type} (fo : FloatOps F) (cc : CharClass).

(** [lex_needs chk n s k]: [s] consists of tokens separated by white space and comments; [n] comments and runs of white space
    stand between the token before [s] and [s]; and [k] is the largest number of comments, runs of white space and exponents that
    belong to one token (those in front of it, those inside it) or to the end of the text. *)
Inductive lex_needs (chk : bool) : nat -> str -> nat -> Prop :=
| ln_end : forall n, lex_needs chk n [] n
| ln_space : forall n w s k, w <> [] -> Forall (fun c => is_whitespace c = true) w ->
    next_is (fun c => is_whitespace c = false) s ->
    lex_needs chk (S n) s k -> lex_needs chk n (w ++ s) k
| ln_comment : forall n body s k, ~ In c_lf body ->
    lex_needs chk (S n) s k -> lex_needs chk n (c_hash :: body ++ c_lf :: s) k
| ln_comment_end : forall n body, ~ In c_lf body -> lex_needs chk n (c_hash :: body) (S n)
| ln_token : forall n text ty s k, lexeme fo cc chk text ty s ->
    lex_needs chk 0 s k -> lex_needs chk n (text ++ s) (Nat.max (n + exponents text ty) k).
End S.
