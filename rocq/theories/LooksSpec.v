(** What is said about how often the input is looked at. *)
From Verif Require Import Base TokModel.

(** The number of entries [i] of a record. *)
Definition looks_at (l : list nat) (i : nat) : nat := count_occ Nat.eq_dec l i.

(** The identifiers that close a block. *)
Definition closing {F} (t : Token F) : Prop :=
  tok_ty t = TIdent (s2l "AttributeEnd") \/ tok_ty t = TIdent (s2l "TransformEnd") \/ tok_ty t = TIdent (s2l "WorldEnd").

(** The characters a token owns; copying the token copies them. *)
Definition text {F} (t : Token F) : nat :=
  match tok_ty t with TIdent s | TStr s => length s | _ => 0 end.

(** The characters of the tokens looked at, once for every look. *)
Fixpoint text_seen {F} (toks : list (Token F)) (l : list nat) : nat :=
  match l with
  | [] => 0
  | i :: l' => match nth_error toks i with Some t => text t | None => 0 end + text_seen toks l'
  end.
