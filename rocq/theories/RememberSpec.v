(** Spec for C122: what a scene remembers of its text. Only data types and the grammar of values are shared with the model. *)
From Verif Require Import Base TokModel ParModel SceneSpec ReorderSpec.

Section Remember.
Context {F : Type} (fo : FloatOps F).
Notation toks := (list (Token F)).

(** A statement: a keyword, its place, and what it is given. *)
Inductive stmt : Type :=
| SAlone (p : Pos) (id : str)
| SNumbers (p : Pos) (id : str) (fl : list F)
| SWord (p : Pos) (id w : str)
| SString (p : Pos) (id w : str)
| SParams (p : Pos) (id : str) (ws : list str) (l : list (pitem (F := F))).

(** The keywords, by what they are given. [takes_params] is in ReorderSpec. *)
Definition takes_nothing : list str := map s2l ["Identity"; "AttributeBegin"; "TransformBegin"; "WorldBegin"]%string.
Definition takes_numbers : list (str * nat) :=
  map (fun k => (s2l (fst k), snd k)) [("Translate"%string, 3); ("Scale"%string, 3); ("Rotate"%string, 4); ("LookAt"%string, 9); ("Transform"%string, 9); ("ConcatTransform"%string, 9); ("TransformTimes"%string, 2)].
Definition takes_word : list str := [s2l "ActiveTransform"].
Definition takes_string : list str := map s2l ["CoordinateSystem"; "CoordSysTransform"; "Include"]%string.

(** [statement s st r]: the tokens [s] begin with the statement [st], and [r] follows. The places of what is given are not part
    of the statement, nor are the brackets around a value, the blanks in a header, or a malformed parameter at the end. *)
Inductive statement : toks -> stmt -> toks -> Prop :=
| st_alone : forall p id r, In id takes_nothing -> statement (mkTok p (TIdent id) :: r) (SAlone p id) r
| st_numbers : forall p id fl s r, In (id, length fl) takes_numbers -> items (float_item fo) s fl r -> not_number r ->
    statement (mkTok p (TIdent id) :: s) (SNumbers p id fl) r
| st_word : forall p id q w r, In id takes_word -> statement (mkTok p (TIdent id) :: mkTok q (TIdent w) :: r) (SWord p id w) r
| st_string : forall p id q w r, In id takes_string -> statement (mkTok p (TIdent id) :: mkTok q (TStr w) :: r) (SString p id w) r
| st_params : forall p id h ws s l r, In (id, length ws) takes_params -> map tok_ty h = map TStr ws -> params fo s l r ->
    statement (mkTok p (TIdent id) :: h ++ s) (SParams p id ws l) r.

(** The statements up to the first closer. *)
Inductive statements : toks -> list stmt -> toks -> Prop :=
| ss_close : forall p id r, In id closers -> statements (mkTok p (TIdent id) :: r) [] (mkTok p (TIdent id) :: r)
| ss_more : forall s st s' l r, statement s st s' -> statements s' l r -> statements s (st :: l) r.

(** The same statement, but for the order of parameters of different kinds. *)
Inductive same_stmt : stmt -> stmt -> Prop :=
| sm_refl : forall st, same_stmt st st
| sm_params : forall p id ws l l', reorder l l' -> same_stmt (SParams p id ws l) (SParams p id ws l').

(** What the statements mean: a block contains everything that follows it. *)
Inductive world_of : list stmt -> list (Directive F) -> Prop :=
| wo_nil : world_of [] []
| wo_block : forall p id mkB l ds, block_kw id mkB -> world_of l ds -> world_of (SAlone p id :: l) [mkB p ds]
| wo_struct : forall p id mkD ty ps l ds, struct_kw id mkD -> world_of l ds ->
    world_of (SParams p id [ty] ps :: l) (mkD (mkDS ty p (collect ps)) :: ds)
| wo_texture : forall p name ty class ps l ds, world_of l ds ->
    world_of (SParams p (s2l "Texture") [name; ty; class] ps :: l) (DTexture (mkTS name ty class p (collect ps)) :: ds)
| wo_include : forall p w l ds, world_of l ds -> world_of (SString p (s2l "Include") w :: l) (DInclude p w :: ds).
Inductive pre_of : stmt -> PreDirective F -> Prop :=
| po_identity : forall p, pre_of (SAlone p (s2l "Identity")) (PIdentity p)
| po_numbers : forall p id fl d, numbers_kw id p fl d -> pre_of (SNumbers p id fl) d
| po_string : forall p id mkP w, pstr_kw id mkP -> pre_of (SString p id w) (mkP p w)
| po_word : forall p w, pre_of (SWord p (s2l "ActiveTransform") w) (PActiveTransform p w)
| po_struct : forall p id mkP ty ps, pstruct_kw id mkP -> pre_of (SParams p id [ty] ps) (mkP (mkDS ty p (collect ps))).
Inductive scene_of : list stmt -> list (PreDirective F) * Directive F -> Prop :=
| so_world : forall p l ds, world_of l ds -> scene_of (SAlone p (s2l "WorldBegin") :: l) ([], DWorld p ds)
| so_pre : forall st d l ds w, pre_of st d -> scene_of l (ds, w) -> scene_of (st :: l) (d :: ds, w).
End Remember.
