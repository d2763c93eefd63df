(** Spec for C119: the order of the parameters of a directive. Only data types and the grammar are shared with the model. *)
From Verif Require Import Base TokModel ParModel SceneSpec SceneObs.

Section Reorder.
Context {F : Type} (fo : FloatOps F).
Notation toks := (list (Token F)).

(** What a parameter is a list of. The four ways to write a spectrum are one kind. *)
Inductive pkind := KInts | KFloats | KPoints | KVectors | KBools | KStrings | KSpectrum | KTexture.
Definition kind_of (v : pval (F := F)) : pkind :=
  match v with
  | VInts _ => KInts | VFloats _ => KFloats | VPoints _ => KPoints | VVectors _ => KVectors
  | VBools _ => KBools | VStrings _ => KStrings | VSpectrum _ => KSpectrum | VTexture _ => KTexture
  end.

(** Neighbours of different kinds change places, any number of times. *)
Inductive reorder : list (pitem (F := F)) -> list pitem -> Prop :=
| ro_refl : forall l, reorder l l
| ro_swap : forall i j l, kind_of (pi_val i) <> kind_of (pi_val j) -> reorder (i :: j :: l) (j :: i :: l)
| ro_skip : forall i l l', reorder l l' -> reorder (i :: l) (i :: l')
| ro_trans : forall l1 l2 l3, reorder l1 l2 -> reorder l2 l3 -> reorder l1 l3.

(** [listing c l]: the tokens [c] are the well-formed parameters [l], one after the other, whatever follows. *)
Definition listing (c : toks) (l : list pitem) : Prop := forall r, some_params fo (c ++ r) l r.

(** Keywords that are followed by strings and then parameters, and how many strings. *)
Definition takes_params : list (str * nat) :=
  (s2l "Texture", 3) :: map (fun k => (s2l k, 1))
    ["Material"; "Shape"; "LightSource"; "AreaLightSource"; "Camera"; "Sampler"; "Film"; "Filter"; "Integrator"; "Accelerator"]%string.

Definition a_string (t : Token F) : Prop := match t with mkTok _ (TStr _) => True | _ => False end.

(** The same tokens but for the order of parameters, in any number of directives. *)
Inductive rearranged : toks -> toks -> Prop :=
| rg_nil : rearranged [] []
| rg_tok : forall t s s', rearranged s s' -> rearranged (t :: s) (t :: s')
| rg_params : forall p id n h c c' l l' s s',
    In (id, n) takes_params -> length h = n -> Forall a_string h ->
    listing c l -> listing c' l' -> reorder l l' -> rearranged s s' ->
    rearranged (mkTok p (TIdent id) :: h ++ c ++ s) (mkTok p (TIdent id) :: h ++ c' ++ s').

(** Same scene, or both stop at the end of the tokens, or both are rejected with a message (which may be another one). *)
Definition same_result {A} (x y : out (result A (error F))) : Prop :=
  match x, y with
  | Done (Ok a), Done (Ok b) => a = b
  | Done (Err EEof), Done (Err EEof) => True
  | Done (Err (EStr _)), Done (Err (EStr _)) => True
  | _, _ => False
  end.
(** The tokens of a scene with one shape whose parameters are [c]. *)
Definition one_shape (p q r t : Pos) ty (c : toks) : toks :=
  mkTok p (TIdent (s2l "WorldBegin")) :: mkTok q (TIdent (s2l "Shape")) :: mkTok r (TStr ty) :: c ++ [mkTok t (TIdent (s2l "WorldEnd"))].
End Reorder.
