(** Vocabulary about error messages. *)
From Verif Require Import Base TokModel.

(** [mentions m p]: position [p] occurs in message [m], possibly inside a quoted message. *)
Inductive mentions {F : Type} : list (piece F) -> Pos -> Prop :=
| mn_here : forall m p, In (PPos p) m -> mentions m p
| mn_nested : forall m m' p, In (PErr (EStr m')) m -> mentions m' p -> mentions m p.

(** The texts of failed number conversions, which are passed on as they are. *)
Definition conversion_text {F : Type} (m : list (piece F)) : Prop :=
  m = [PText "invalid digit found in string"] \/ m = [PText "number too large to fit in target type"] \/
  m = [PText "number too small to fit in target type"] \/ m = [PText "invalid float literal"].

(** The texts for tokens that run out inside a directive. *)
Inductive end_text {F : Type} : list (piece F) -> Prop :=
| et_string : end_text [PText "parse_string(): EOF while processing string"]
| et_ident : end_text [PText "parse_identifier(): EOF while processing identifier"]
| et_number : end_text
    [PText "parse_many_"; PText "float"; PText "s(): error while processing "; PText "float"; PText "s:
  ";
     PErr (EStr [PText "parse_float(): EOF while parsing float"])].
