(** Vocabulary about how a result changes when tokens are added at the end. *)
From Verif Require Import Base TokModel ErrSpec.

Definition number_tok {F : Type} (t : Token F) : Prop :=
  match tok_ty t with TInt _ | TFloat _ => True | _ => False end.
(** [between_numbers s u]: the last token of [s] and the first of [u] are numbers. *)
Definition between_numbers {F : Type} (s u : list (Token F)) : Prop :=
  exists s' t t' u', s = s' ++ [t] /\ number_tok t /\ u = t' :: u' /\ number_tok t'.
(** [placed m]: the message names a place. *)
Definition placed {F : Type} (m : list (piece F)) : Prop := exists p, mentions m p.
