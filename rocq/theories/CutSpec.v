(** Specification for C121: texts cut short. *)
From Verif Require Import Base TokModel LexSpec StableSpec.

(** A token of which only the first characters are left. *)
Inductive cut_token {F : Type} : Token F -> Token F -> Prop :=
| ct_ident : forall p v w, v <> [] -> w <> [] -> cut_token (mkTok p (TIdent (v ++ w))) (mkTok p (TIdent v))
| ct_number : forall t t', number_tok t -> number_tok t' -> tok_pos t' = tok_pos t -> cut_token t t'.
(** The tokens of a text cut short: whole tokens, and perhaps a cut one at the end. *)
Definition cut_tokens {F : Type} (s s' : list (Token F)) : Prop := exists l r, s = l ++ r /\
  (s' = l \/ exists t r' t', r = t :: r' /\ s' = l ++ [t'] /\ cut_token t t').
