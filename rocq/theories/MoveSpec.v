(** Moving the positions: every position of a token, a scene or a message is replaced. *)
From Verif Require Import Base TokModel ParModel.

Section Move.
Context {F : Type} (h : Pos -> Pos).

Definition mv_tok (t : Token F) : Token F := mkTok (h (tok_pos t)) (tok_ty t).
Fixpoint mv_error (e : error F) : error F :=
  match e with
  | EStr l => EStr (map (fun p =>
      match p with
      | PPos p => PPos (h p) | PErr e => PErr (mv_error e) | PErrDbg e => PErrDbg (mv_error e)
      | p => p
      end) l)
  | EEof => EEof
  end.
Definition mv_piece (p : piece F) : piece F :=
  match p with
  | PPos p => PPos (h p) | PErr e => PErr (mv_error e) | PErrDbg e => PErrDbg (mv_error e)
  | p => p
  end.
Definition mv_param {T} (p : Param T) : Param T := mkParam (par_name p) (h (par_pos p)) (par_values p).
Definition mv_ps (s : ParamSet F) : ParamSet F :=
  match s with
  | mkPS bs is fs p2 v2 p3 v3 n3 sp ss ts =>
      mkPS (map mv_param bs) (map mv_param is) (map mv_param fs) (map mv_param p2) (map mv_param v2) (map mv_param p3)
        (map mv_param v3) (map mv_param n3) (map mv_param sp) (map mv_param ss) (map mv_param ts)
  end.
Definition mv_ds (d : DirectiveStruct F) : DirectiveStruct F := mkDS (ds_ty d) (h (ds_pos d)) (mv_ps (ds_params d)).
Definition mv_ts (d : TextureStruct F) : TextureStruct F :=
  mkTS (ts_name d) (ts_ty d) (ts_class d) (h (ts_pos d)) (mv_ps (ts_params d)).
Fixpoint mv_dir (d : Directive F) : Directive F :=
  match d with
  | DMaterial d => DMaterial (mv_ds d)
  | DShape d => DShape (mv_ds d)
  | DLightSource d => DLightSource (mv_ds d)
  | DAreaLightSource d => DAreaLightSource (mv_ds d)
  | DAttribute p l => DAttribute (h p) (map mv_dir l)
  | DTransform p l => DTransform (h p) (map mv_dir l)
  | DWorld p l => DWorld (h p) (map mv_dir l)
  | DInclude p s => DInclude (h p) s
  | DTexture t => DTexture (mv_ts t)
  end.
Definition mv_pre (d : PreDirective F) : PreDirective F :=
  match d with
  | PIdentity p => PIdentity (h p)
  | PTranslate p v => PTranslate (h p) v
  | PScale p v => PScale (h p) v
  | PRotate p a v => PRotate (h p) a v
  | PLookAt p m => PLookAt (h p) m
  | PCoordinateSystem p s => PCoordinateSystem (h p) s
  | PCoordSysTransform p s => PCoordSysTransform (h p) s
  | PTransform p m => PTransform (h p) m
  | PConcatTransform p m => PConcatTransform (h p) m
  | PActiveTransform p s => PActiveTransform (h p) s
  | PTransformTimes p a b => PTransformTimes (h p) a b
  | PCamera d => PCamera (mv_ds d)
  | PSampler d => PSampler (mv_ds d)
  | PFilm d => PFilm (mv_ds d)
  | PFilter d => PFilter (mv_ds d)
  | PIntegrator d => PIntegrator (mv_ds d)
  | PAccelerator d => PAccelerator (mv_ds d)
  | PInclude p s => PInclude (h p) s
  end.
Definition mv_scene (x : list (PreDirective F) * Directive F) : list (PreDirective F) * Directive F :=
  (map mv_pre (fst x), mv_dir (snd x)).
(** A result, an error or a panic. *)
Definition mv_outcome {A B} (g : A -> B) (x : out (result A (error F))) : out (result B (error F)) :=
  match x with
  | Done (Ok a) => Done (Ok (g a))
  | Done (Err e) => Done (Err (mv_error e))
  | Panic => Panic
  | OutOfFuel => OutOfFuel
  end.
End Move.

(** Pre-directives in front of a scene. *)
Definition in_front {F} (ps : list (PreDirective F)) (x : out (result (list (PreDirective F) * Directive F) (error F))) :=
  match x with
  | Done (Ok (qs, w)) => Done (Ok (ps ++ qs, w))
  | o => o
  end.

(** Directives added to a list whose blocks are still open: they go into the innermost open block. A block is open if
    nothing follows it. *)
Section Graft.
Context {F : Type} (db : list (Directive F)).
Fixpoint graft_dir (d : Directive F) : list (Directive F) :=
  let fix graft_in l :=
    match l with
    | [] => db
    | [d] => graft_dir d
    | d :: l => d :: graft_in l
    end in
  match d with
  | DAttribute p l => [DAttribute p (graft_in l)]
  | DTransform p l => [DTransform p (graft_in l)]
  | DWorld p l => [DWorld p (graft_in l)]
  | d => d :: db
  end.
Fixpoint graft (l : list (Directive F)) : list (Directive F) :=
  match l with
  | [] => db
  | [d] => graft_dir d
  | d :: l => d :: graft l
  end.
End Graft.
(** The directives [ds] in front of those of the world block. *)
Definition in_body {F} (ds : list (Directive F)) (x : out (result (list (PreDirective F) * Directive F) (error F))) :=
  match x with
  | Done (Ok (qs, DWorld p db)) => Done (Ok (qs, DWorld p (graft db ds)))
  | o => o
  end.
(** Everything below line [n] moved [k] lines down. *)
Definition below (n k : nat) (p : Pos) : Pos := if pos_r p <=? n then p else mkPos (k + pos_r p) (pos_c p).
(** A keyword at a position. *)
Definition kw {F} (w : string) (p : Pos) : Token F := mkTok p (TIdent (s2l w)).
