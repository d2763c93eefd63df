(** Vocabulary about where errors are reported. *)
From Verif Require Import Base TokModel ParModel.

(** [beginning fo s]: some accepted input begins with [s]. *)
Definition beginning {F : Type} (fo : FloatOps F) (s : list (Token F)) : Prop :=
  exists v x, parse_tokens fo (s ++ v) = Done (Ok x).
(** The message for a wrong number of numbers, which names the keyword in front of them. *)
Definition count_message {F : Type} (m : list (piece F)) : Prop := exists p what n k,
  m = [PPos p; PText " parse_predirective(): "; PText what; PText " expects "; PNat n; PText " floats but was given "; PNat k].
