(** Model of src/core: points, vectors, normals, bounding boxes, rays. Every definition names the lines it models.
    [T] is a type with the [Elem] operations, [F] one with the [FloatT] operations. A method of a generic type takes the
    operations as first argument. By-value and by-reference versions of one operator (e.g. [Neg for Vector3] and
    [Neg for &Vector3]) have the same body and are one definition here. *)
From Verif Require Import Base Elem.
Local Open Scope mon_scope.

(** ** Arithmetic on computations, so that expressions read as in the source. *)
Definition lift2 {A} (op : A -> A -> out A) (m n : out A) : out A := x <~ m ;; y <~ n ;; op x y.
Notation "! x" := (Done x) (at level 8, x at level 0, format "! x").
Notation "m +[ E ] n" := (lift2 (e_add E) m n) (at level 50, left associativity, E at level 200).
Notation "m -[ E ] n" := (lift2 (e_sub E) m n) (at level 50, left associativity, E at level 200).
Notation "m *[ E ] n" := (lift2 (e_mul E) m n) (at level 40, left associativity, E at level 200).
Notation "m /[ E ] n" := (lift2 (e_div E) m n) (at level 40, left associativity, E at level 200).

(** ** Data types *)
(** point.rs 5-9, 22-26; vector.rs 5-9, 40-45; normal.rs 4-9. *)
Record Point2 (T : Type) := P2 { p2x : T; p2y : T }.
Record Point3 (T : Type) := P3 { px : T; py : T; pz : T }.
Record Vector2 (T : Type) := V2 { v2x : T; v2y : T }.
Record Vector3 (T : Type) := V3 { vx : T; vy : T; vz : T }.
Record Normal3 (T : Type) := N3 { nx : T; ny : T; nz : T }.
Arguments P2 {T}. Arguments p2x {T}. Arguments p2y {T}.
Arguments P3 {T}. Arguments px {T}. Arguments py {T}. Arguments pz {T}.
Arguments V2 {T}. Arguments v2x {T}. Arguments v2y {T}.
Arguments V3 {T}. Arguments vx {T}. Arguments vy {T}. Arguments vz {T}.
Arguments N3 {T}. Arguments nx {T}. Arguments ny {T}. Arguments nz {T}.

(** Three component computations, left to right. *)
Definition mk3 {A B} (c : A -> A -> A -> B) (x y z : out A) : out B := a <~ x ;; b <~ y ;; d <~ z ;; !(c a b d).
Definition mk2 {A B} (c : A -> A -> B) (x y : out A) : out B := a <~ x ;; b <~ y ;; !(c a b).

Section Elements.
  Context {T : Type} (E : Elem T).

  (** mod.rs 134-142 and 144-152: [elems[0]] and [elems[1..]] panic on an empty slice. *)
  Definition pmin (elems : list T) : out T :=
    match elems with
    | [] => Panic
    | x :: rest => Done (fold_left (fun m e => if e_lt E e m then e else m) rest x)
    end.
  Definition pmax (elems : list T) : out T :=
    match elems with
    | [] => Panic
    | x :: rest => Done (fold_left (fun m e => if e_lt E m e then e else m) rest x)
    end.

  (** *** Points (point.rs) *)
  (** 16-18 *)
  Definition p2_abs (p : Point2 T) : out (Point2 T) := mk2 P2 (e_abs E (p2x p)) (e_abs E (p2y p)).
  (** 33-35 *)
  Definition p3_abs (p : Point3 T) : out (Point3 T) := mk3 P3 (e_abs E (px p)) (e_abs E (py p)) (e_abs E (pz p)).
  (** 37-43, 45-51 *)
  Definition p3_min (s p : Point3 T) : out (Point3 T) := mk3 P3 (pmin [px s; px p]) (pmin [py s; py p]) (pmin [pz s; pz p]).
  Definition p3_max (s p : Point3 T) : out (Point3 T) := mk3 P3 (pmax [px s; px p]) (pmax [py s; py p]) (pmax [pz s; pz p]).
  (** mod.rs 117-121 *)
  Definition p3_has_nan (p : Point3 T) : bool := e_is_nan E (px p) || e_is_nan E (py p) || e_is_nan E (pz p).
  (** 54-58 *)
  Definition p3_from_v3 (v : Vector3 T) : Point3 T := P3 (vx v) (vy v) (vz v).
  (** 60-65: asserts that no coordinate is NaN. *)
  Definition p2_from_p3 (p : Point3 T) : out (Point2 T) := if p3_has_nan p then Panic else Done (P2 (px p) (py p)).
  (** 67-73 *)
  Definition p3_add (p : Point3 T) (v : Vector3 T) : out (Point3 T) :=
    mk3 P3 (!(px p) +[E] !(vx v)) (!(py p) +[E] !(vy v)) (!(pz p) +[E] !(vz v)).
  (** 75-81 *)
  Definition p3_sub_v (p : Point3 T) (v : Vector3 T) : out (Point3 T) :=
    mk3 P3 (!(px p) -[E] !(vx v)) (!(py p) -[E] !(vy v)) (!(pz p) -[E] !(vz v)).
  (** 83-97 *)
  Definition p3_sub (p q : Point3 T) : out (Vector3 T) :=
    mk3 V3 (!(px p) -[E] !(px q)) (!(py p) -[E] !(py q)) (!(pz p) -[E] !(pz q)).
  (** 99-113 *)
  Definition p3_mul (p : Point3 T) (s : T) : out (Point3 T) :=
    mk3 P3 (!s *[E] !(px p)) (!s *[E] !(py p)) (!s *[E] !(pz p)).
  (** 115-121 *)
  Definition p3_div (p : Point3 T) (s : T) : out (Point3 T) :=
    mk3 P3 (!(px p) /[E] !s) (!(py p) /[E] !s) (!(pz p) /[E] !s).

  (** *** Vectors (vector.rs) *)
  (** 11-22: the assertion fails for i >= 2. *)
  Definition v2_index (v : Vector2 T) (i : nat) : out T := match i with 0 => !(v2x v) | 1 => !(v2y v) | _ => Panic end.
  (** 30-38: asserts [rhs != 0], then multiplies by [rhs]. *)
  Definition v2_div (v : Vector2 T) (rhs : T) : out (Vector2 T) :=
    if negb (e_eq E rhs (e_from_int E 0)) then mk2 V2 (!(v2x v) *[E] !rhs) (!(v2y v) *[E] !rhs) else Panic.
  (** 47-59 *)
  Definition v3_index (v : Vector3 T) (i : nat) : out T :=
    match i with 0 => !(vx v) | 1 => !(vy v) | 2 => !(vz v) | _ => Panic end.
  (** 66-68 *)
  Definition v3_len_sq (v : Vector3 T) : out T :=
    !(vx v) *[E] !(vx v) +[E] !(vy v) *[E] !(vy v) +[E] !(vz v) *[E] !(vz v).
  (** 75-77 *)
  Definition v3_dot (u v : Vector3 T) : out T :=
    !(vx u) *[E] !(vx v) +[E] !(vy u) *[E] !(vy v) +[E] !(vz u) *[E] !(vz v).
  (** 79-85 *)
  Definition v3_cross (u v : Vector3 T) : out (Vector3 T) :=
    mk3 V3 (!(vy u) *[E] !(vz v) -[E] !(vz u) *[E] !(vy v))
           (!(vz u) *[E] !(vx v) -[E] !(vx u) *[E] !(vz v))
           (!(vx u) *[E] !(vy v) -[E] !(vy u) *[E] !(vx v)).
  (** 87-89 *)
  Definition v3_permute (v : Vector3 T) (x y z : nat) : out (Vector3 T) :=
    mk3 V3 (v3_index v x) (v3_index v y) (v3_index v z).
  (** 149-163 *)
  Definition v3_neg (v : Vector3 T) : out (Vector3 T) := mk3 V3 (e_neg E (vx v)) (e_neg E (vy v)) (e_neg E (vz v)).
  (** 91-97 *)
  Definition v3_face_forward (u v : Vector3 T) : out (Vector3 T) :=
    d <~ v3_dot u v ;; if e_lt E d (e_from_int E 0) then v3_neg u else !u.
  (** 99-105, 107-113 *)
  Definition v3_min (u v : Vector3 T) : out (Vector3 T) := mk3 V3 (pmin [vx u; vx v]) (pmin [vy u; vy v]) (pmin [vz u; vz v]).
  Definition v3_max (u v : Vector3 T) : out (Vector3 T) := mk3 V3 (pmax [vx u; vx v]) (pmax [vy u; vy v]) (pmax [vz u; vz v]).
  (** 115-117, 119-121 *)
  Definition v3_min_component (v : Vector3 T) : out T := pmin [vx v; vy v; vz v].
  Definition v3_max_component (v : Vector3 T) : out T := pmax [vx v; vy v; vz v].
  (** 123-135 *)
  Definition v3_max_dimension (v : Vector3 T) : nat :=
    if e_lt E (vy v) (vx v) then (if e_lt E (vz v) (vx v) then 0 else 2)
    else if e_lt E (vz v) (vy v) then 1 else 2.
  (** 165-171, 173-179, 181-195, 197-203 *)
  Definition v3_add (u v : Vector3 T) : out (Vector3 T) :=
    mk3 V3 (!(vx u) +[E] !(vx v)) (!(vy u) +[E] !(vy v)) (!(vz u) +[E] !(vz v)).
  Definition v3_sub (u v : Vector3 T) : out (Vector3 T) :=
    mk3 V3 (!(vx u) -[E] !(vx v)) (!(vy u) -[E] !(vy v)) (!(vz u) -[E] !(vz v)).
  Definition v3_mul (v : Vector3 T) (s : T) : out (Vector3 T) :=
    mk3 V3 (!s *[E] !(vx v)) (!s *[E] !(vy v)) (!s *[E] !(vz v)).
  Definition v3_div (v : Vector3 T) (s : T) : out (Vector3 T) :=
    mk3 V3 (!(vx v) /[E] !s) (!(vy v) /[E] !s) (!(vz v) /[E] !s).
  (** 205-209 *)
  Definition v3_from_p3 (p : Point3 T) : Vector3 T := V3 (px p) (py p) (pz p).

  (** *** Normals (normal.rs) *)
  (** 11-23 *)
  Definition n3_index (v : Normal3 T) (i : nat) : out T :=
    match i with 0 => !(nx v) | 1 => !(ny v) | 2 => !(nz v) | _ => Panic end.
  (** 30-32 *)
  Definition n3_len_sq (v : Normal3 T) : out T :=
    !(nx v) *[E] !(nx v) +[E] !(ny v) *[E] !(ny v) +[E] !(nz v) *[E] !(nz v).
  (** 39-41 *)
  Definition n3_dot (u v : Normal3 T) : out T :=
    !(nx u) *[E] !(nx v) +[E] !(ny u) *[E] !(ny v) +[E] !(nz u) *[E] !(nz v).
  (** 43-49 *)
  Definition n3_cross (u v : Normal3 T) : out (Normal3 T) :=
    mk3 N3 (!(ny u) *[E] !(nz v) -[E] !(nz u) *[E] !(ny v))
           (!(nz u) *[E] !(nx v) -[E] !(nx u) *[E] !(nz v))
           (!(nx u) *[E] !(ny v) -[E] !(ny u) *[E] !(nx v)).
  (** 51-53 *)
  Definition n3_permute (v : Normal3 T) (x y z : nat) : out (Normal3 T) :=
    mk3 N3 (n3_index v x) (n3_index v y) (n3_index v z).
  (** 102-116 *)
  Definition n3_neg (v : Normal3 T) : out (Normal3 T) := mk3 N3 (e_neg E (nx v)) (e_neg E (ny v)) (e_neg E (nz v)).
  (** 55-61 *)
  Definition n3_face_forward (u v : Normal3 T) : out (Normal3 T) :=
    d <~ n3_dot u v ;; if e_lt E d (e_from_int E 0) then n3_neg u else !u.
  (** 63-69, 71-77 *)
  Definition n3_min (u v : Normal3 T) : out (Normal3 T) := mk3 N3 (pmin [nx u; nx v]) (pmin [ny u; ny v]) (pmin [nz u; nz v]).
  Definition n3_max (u v : Normal3 T) : out (Normal3 T) := mk3 N3 (pmax [nx u; nx v]) (pmax [ny u; ny v]) (pmax [nz u; nz v]).
  (** 79-81, 83-85 *)
  Definition n3_min_component (v : Normal3 T) : out T := pmin [nx v; ny v; nz v].
  Definition n3_max_component (v : Normal3 T) : out T := pmax [nx v; ny v; nz v].
  (** 87-99 *)
  Definition n3_max_dimension (v : Normal3 T) : nat :=
    if e_lt E (ny v) (nx v) then (if e_lt E (nz v) (nx v) then 0 else 2)
    else if e_lt E (nz v) (ny v) then 1 else 2.
  (** 118-124, 126-132, 134-148, 150-156 *)
  Definition n3_add (u v : Normal3 T) : out (Normal3 T) :=
    mk3 N3 (!(nx u) +[E] !(nx v)) (!(ny u) +[E] !(ny v)) (!(nz u) +[E] !(nz v)).
  Definition n3_sub (u v : Normal3 T) : out (Normal3 T) :=
    mk3 N3 (!(nx u) -[E] !(nx v)) (!(ny u) -[E] !(ny v)) (!(nz u) -[E] !(nz v)).
  Definition n3_mul (v : Normal3 T) (s : T) : out (Normal3 T) :=
    mk3 N3 (!s *[E] !(nx v)) (!s *[E] !(ny v)) (!s *[E] !(nz v)).
  Definition n3_div (v : Normal3 T) (s : T) : out (Normal3 T) :=
    mk3 N3 (!(nx v) /[E] !s) (!(ny v) /[E] !s) (!(nz v) /[E] !s).
  (** 158-162 *)
  Definition n3_from_v3 (v : Vector3 T) : Normal3 T := N3 (vx v) (vy v) (vz v).
End Elements.

(** ** Boxes (boundingbox.rs) *)
(** 8-11, 13-16 *)
Record Bounds2 (T : Type) := B2 { b2_min : Point2 T; b2_max : Point2 T }.
Record Bounds3 (T : Type) := B3 { b_min : Point3 T; b_max : Point3 T }.
Arguments B2 {T}. Arguments b2_min {T}. Arguments b2_max {T}.
Arguments B3 {T}. Arguments b_min {T}. Arguments b_max {T}.
(** 196-200 *)
Record Bounds2Iter (T : Type) := BI { it_max : Point2 T; it_x : T; it_y : T }.
Arguments BI {T}. Arguments it_max {T}. Arguments it_x {T}. Arguments it_y {T}.

Section Boxes.
  Context {T : Type} (E : Elem T).

  (** 21-34 *)
  Definition b3_new (p1 p2 : Point3 T) : out (Bounds3 T) :=
    lo <~ mk3 P3 (pmin E [px p1; px p2]) (pmin E [py p1; py p2]) (pmin E [pz p1; pz p2]) ;;
    hi <~ mk3 P3 (pmax E [px p1; px p2]) (pmax E [py p1; py p2]) (pmax E [pz p1; pz p2]) ;;
    !(B3 lo hi).
  (** 36-41 *)
  Definition b3_new_inf : out (Bounds3 T) :=
    b3_new (P3 (e_max_value E) (e_max_value E) (e_max_value E)) (P3 (e_min_value E) (e_min_value E) (e_min_value E)).
  (** 43-45 *)
  Definition b3_new_pt (p : Point3 T) : out (Bounds3 T) := b3_new p p.
  (** 47-64: [corner & 1 > 0] selects the lower bound. *)
  Definition b3_corner (b : Bounds3 T) (corner : N) : Point3 T :=
    P3 (px (if (0 <? N.land corner 1)%N then b_min b else b_max b))
       (py (if (0 <? N.land corner 2)%N then b_min b else b_max b))
       (pz (if (0 <? N.land corner 4)%N then b_min b else b_max b)).
  (** 66-79 *)
  Definition b3_union_pt (s : Bounds3 T) (p : Point3 T) : out (Bounds3 T) :=
    lo <~ mk3 P3 (pmin E [px (b_min s); px p]) (pmin E [py (b_min s); py p]) (pmin E [pz (b_min s); pz p]) ;;
    hi <~ mk3 P3 (pmax E [px (b_max s); px p]) (pmax E [py (b_max s); py p]) (pmax E [pz (b_max s); pz p]) ;;
    b3_new lo hi.
  (** 81-94 *)
  Definition b3_union (s b : Bounds3 T) : out (Bounds3 T) :=
    lo <~ mk3 P3 (pmin E [px (b_min s); px (b_min b)]) (pmin E [py (b_min s); py (b_min b)]) (pmin E [pz (b_min s); pz (b_min b)]) ;;
    hi <~ mk3 P3 (pmax E [px (b_max s); px (b_max b)]) (pmax E [py (b_max s); py (b_max b)]) (pmax E [pz (b_max s); pz (b_max b)]) ;;
    b3_new lo hi.
  (** 96-109 *)
  Definition b3_intersect (s b : Bounds3 T) : out (Bounds3 T) :=
    lo <~ mk3 P3 (pmax E [px (b_min s); px (b_min b)]) (pmax E [py (b_min s); py (b_min b)]) (pmax E [pz (b_min s); pz (b_min b)]) ;;
    hi <~ mk3 P3 (pmin E [px (b_max s); px (b_max b)]) (pmin E [py (b_max s); py (b_max b)]) (pmin E [pz (b_max s); pz (b_max b)]) ;;
    b3_new lo hi.
  (** 111-116 *)
  Definition b3_overlaps (s b : Bounds3 T) : bool :=
    let x := e_le E (px (b_min b)) (px (b_max s)) && e_le E (px (b_min s)) (px (b_max b)) in
    let y := e_le E (py (b_min b)) (py (b_max s)) && e_le E (py (b_min s)) (py (b_max b)) in
    let z := e_le E (pz (b_min b)) (pz (b_max s)) && e_le E (pz (b_min s)) (pz (b_max b)) in
    x && y && z.
  (** 118-125 *)
  Definition b3_inside (s : Bounds3 T) (p : Point3 T) : bool :=
    e_le E (px (b_min s)) (px p) && e_le E (px p) (px (b_max s)) &&
    e_le E (py (b_min s)) (py p) && e_le E (py p) (py (b_max s)) &&
    e_le E (pz (b_min s)) (pz p) && e_le E (pz p) (pz (b_max s)).
  (** 127-134 *)
  Definition b3_inside_exclusive (s : Bounds3 T) (p : Point3 T) : bool :=
    e_le E (px (b_min s)) (px p) && e_lt E (px p) (px (b_max s)) &&
    e_le E (py (b_min s)) (py p) && e_lt E (py p) (py (b_max s)) &&
    e_le E (pz (b_min s)) (pz p) && e_lt E (pz p) (pz (b_max s)).
  (** 136-141 *)
  Definition b3_expand (s : Bounds3 T) (delta : T) : out (Bounds3 T) :=
    lo <~ p3_sub_v E (b_min s) (V3 delta delta delta) ;;
    hi <~ p3_add E (b_max s) (V3 delta delta delta) ;;
    b3_new lo hi.
  (** 143-145 *)
  Definition b3_diagonal (s : Bounds3 T) : out (Vector3 T) := p3_sub E (b_max s) (b_min s).
  (** 147-150 *)
  Definition b3_surface_area (s : Bounds3 T) : out T :=
    d <~ b3_diagonal s ;;
    !(e_from_int E 2) *[E] (!(vx d) *[E] !(vy d) +[E] !(vx d) *[E] !(vz d) +[E] !(vy d) *[E] !(vz d)).
  (** 152-155 *)
  Definition b3_volume (s : Bounds3 T) : out T :=
    d <~ b3_diagonal s ;; !(vx d) *[E] !(vy d) *[E] !(vz d).
  (** 157-166 *)
  Definition b3_maximum_extent (s : Bounds3 T) : out nat :=
    d <~ b3_diagonal s ;;
    !(if e_lt E (vy d) (vx d) && e_lt E (vz d) (vx d) then 0 else if e_lt E (vz d) (vy d) then 1 else 2).
  (** 168-180 *)
  Definition b3_offset (s : Bounds3 T) (p : Point3 T) : out (Vector3 T) :=
    o <~ p3_sub E p (b_min s) ;;
    o <~ (if e_lt E (px (b_min s)) (px (b_max s))
          then x <~ !(vx o) /[E] (!(px (b_max s)) -[E] !(px (b_min s))) ;; !(V3 x (vy o) (vz o)) else !o) ;;
    o <~ (if e_lt E (py (b_min s)) (py (b_max s))
          then y <~ !(vy o) /[E] (!(py (b_max s)) -[E] !(py (b_min s))) ;; !(V3 (vx o) y (vz o)) else !o) ;;
    (if e_lt E (pz (b_min s)) (pz (b_max s))
     then z <~ !(vz o) /[E] (!(pz (b_max s)) -[E] !(pz (b_min s))) ;; !(V3 (vx o) (vy o) z) else !o).

  (** 183-194 *)
  Definition b2_into_iter (b : Bounds2 T) : Bounds2Iter T := BI (b2_max b) (p2x (b2_min b)) (p2y (b2_min b)).
  (** 202-218 *)
  Definition b2_next (it : Bounds2Iter T) : out (option (Point2 T) * Bounds2Iter T) :=
    if e_le E (p2x (it_max it)) (it_x it) && e_le E (p2y (it_max it)) (it_y it) then Done (None, it)
    else
      it' <~ (if e_le E (p2x (it_max it)) (it_x it)
              then y <~ e_add E (it_y it) (e_from_int E 1) ;; !(BI (it_max it) (e_from_int E 0) y)
              else x <~ e_add E (it_x it) (e_from_int E 1) ;; !(BI (it_max it) x (it_y it))) ;;
      Done (Some (P2 (it_x it') (it_y it')), it').
End Boxes.

(** ** Code on [Float] *)
(** ray.rs 3-9, 31-38. [Medium] (mod.rs 132) is an empty struct. *)
Record Ray (F : Type) := mkRay { r_o : Point3 F; r_d : Vector3 F; r_t_max : F; r_time : F; r_medium : unit }.
Arguments mkRay {F}. Arguments r_o {F}. Arguments r_d {F}. Arguments r_t_max {F}. Arguments r_time {F}. Arguments r_medium {F}.
Record RayDifferential (F : Type) := mkRD {
  rd_ray : Ray F; rd_has : bool; rx_origin : Point3 F; ry_origin : Point3 F; rx_direction : Vector3 F; ry_direction : Vector3 F }.
Arguments mkRD {F}. Arguments rd_ray {F}. Arguments rd_has {F}. Arguments rx_origin {F}. Arguments ry_origin {F}.
Arguments rx_direction {F}. Arguments ry_direction {F}.

Section Floats.
  Context {F : Type} (FT : FloatT F).
  Notation lit i := (Done (e_from_int FT i)).

  (** mod.rs 20-22 *)
  Definition lerp (t v1 v2 : F) : out F := (lit 1 -[FT] !t) *[FT] !v1 +[FT] !t *[FT] !v2.
  (** mod.rs 154-156 *)
  Definition not_one (x : F) : bool := e_lt FT x (fl_0999 FT) || e_lt FT (fl_1001 FT) x.
  (** vector.rs 70-73 and normal.rs 34-37; [as_] is the conversion of the element type to Float. *)
  Definition v3_len {T} (E : Elem T) (as_ : T -> F) (v : Vector3 T) : out F := l <~ v3_len_sq E v ;; fl_sqrt FT (as_ l).
  Definition n3_len {T} (E : Elem T) (as_ : T -> F) (v : Normal3 T) : out F := l <~ n3_len_sq E v ;; fl_sqrt FT (as_ l).
  (** point.rs 123-125 *)
  Definition p3_lerp (t : F) (p0 p1 : Point3 F) : out (Point3 F) :=
    s <~ lit 1 -[FT] !t ;; a <~ p3_mul FT p0 s ;; b <~ p3_mul FT p1 t ;; p3_add FT a (v3_from_p3 b).
  (** point.rs 127-129, 131-133 *)
  Definition p3_floor (p : Point3 F) : Point3 F := P3 (fl_floor FT (px p)) (fl_floor FT (py p)) (fl_floor FT (pz p)).
  Definition p3_ceil (p : Point3 F) : Point3 F := P3 (fl_ceil FT (px p)) (fl_ceil FT (py p)) (fl_ceil FT (pz p)).
  (** vector.rs 211-219 *)
  Definition coordinate_system (v1 : Vector3 F) : out (Vector3 F * Vector3 F) :=
    ax <~ e_abs FT (vx v1) ;; ay <~ e_abs FT (vy v1) ;;
    v2 <~ (if e_lt FT ay ax
           then nz <~ e_neg FT (vz v1) ;;
                s <~ !(vx v1) *[FT] !(vx v1) +[FT] !(vz v1) *[FT] !(vz v1) ;; r <~ fl_sqrt FT s ;;
                v3_div FT (V3 nz (e_from_int FT 0) (vx v1)) r
           else ny <~ e_neg FT (vy v1) ;;
                s <~ !(vy v1) *[FT] !(vy v1) +[FT] !(vz v1) *[FT] !(vz v1) ;; r <~ fl_sqrt FT s ;;
                v3_div FT (V3 (e_from_int FT 0) (vz v1) ny) r) ;;
    v3 <~ v3_cross FT v1 v2 ;;
    !(v2, v3).
  (** boundingbox.rs 220-230 *)
  Definition bounding_sphere (b : Bounds3 F) : out (Point3 F * F) :=
    s <~ p3_add FT (b_min b) (v3_from_p3 (b_max b)) ;;
    center <~ p3_div FT s (e_from_int FT 2) ;;
    r <~ (if b3_inside FT b center then d <~ p3_sub FT center (b_max b) ;; v3_len FT (fun x => x) d else lit 0) ;;
    !(center, r).
  (** boundingbox.rs 232-238 *)
  Definition b3_lerp (b : Bounds3 F) (t : Point3 F) : out (Point3 F) :=
    mk3 P3 (lerp (px t) (px (b_min b)) (px (b_max b))) (lerp (py t) (py (b_min b)) (py (b_max b)))
           (lerp (pz t) (pz (b_min b)) (pz (b_max b))).

  (** ray.rs 22-24 *)
  Definition ray_new_infinite (o : Point3 F) (d : Vector3 F) : Ray F := mkRay o d (fl_infinity FT) (e_from_int FT 0) tt.
  (** ray.rs 26-28 *)
  Definition ray_at (r : Ray F) (t : F) : out (Point3 F) := dt <~ v3_mul FT (r_d r) t ;; p3_add FT (r_o r) dt.
  (** ray.rs 41-50 *)
  Definition rd_new (r : Ray F) : RayDifferential F :=
    let z := e_from_int FT 0 in mkRD r false (P3 z z z) (P3 z z z) (V3 z z z) (V3 z z z).
  (** ray.rs 52-57 *)
  Definition rd_scale (rd : RayDifferential F) (s : F) : out (RayDifferential F) :=
    let o := r_o (rd_ray rd) in let d := r_d (rd_ray rd) in
    a <~ p3_sub FT (rx_origin rd) o ;; a <~ v3_mul FT a s ;; xo <~ p3_add FT o a ;;
    a <~ p3_sub FT (ry_origin rd) o ;; a <~ v3_mul FT a s ;; yo <~ p3_add FT o a ;;
    a <~ v3_sub FT (rx_direction rd) d ;; a <~ v3_mul FT a s ;; xd <~ v3_add FT d a ;;
    a <~ v3_sub FT (ry_direction rd) d ;; a <~ v3_mul FT a s ;; yd <~ v3_add FT d a ;;
    !(mkRD (rd_ray rd) (rd_has rd) xo yo xd yd).
End Floats.
