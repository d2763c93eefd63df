(** What is said about the part of the input that is looked at. *)
From Verif Require Import Base TokModel.

(** The lists have the same entries, or none, at all the indices of [l]. *)
Definition agree {A} (u v : list A) (l : list nat) : Prop := forall i, In i l -> nth_error u i = nth_error v i.

(** The record leaves no gaps: whatever comes before something looked at was looked at too. *)
Definition no_gap (l : list nat) : Prop := forall i j, In j l -> i < j -> In i l.
