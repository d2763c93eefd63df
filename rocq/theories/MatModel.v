(** Model of src/core/matrix.rs and src/core/transform.rs. *)
From Verif Require Import Base Elem GeoModel.
Local Open Scope mon_scope.

(** ** 4x4 arrays. The loops of the code run over 0..4; their variables, and the row and column numbers stored from
    them, are the four-element type [ix], so indexing with them cannot fail. *)
Inductive ix := I0 | I1 | I2 | I3.
Definition ix_eqb (i j : ix) : bool :=
  match i, j with I0, I0 | I1, I1 | I2, I2 | I3, I3 => true | _, _ => false end.
Record vec4 (A : Type) := W4 { w0 : A; w1 : A; w2 : A; w3 : A }.
Arguments W4 {A}. Arguments w0 {A}. Arguments w1 {A}. Arguments w2 {A}. Arguments w3 {A}.
Definition vget {A} (v : vec4 A) (i : ix) : A := match i with I0 => w0 v | I1 => w1 v | I2 => w2 v | I3 => w3 v end.
Definition vset {A} (v : vec4 A) (i : ix) (a : A) : vec4 A :=
  match i with
  | I0 => W4 a (w1 v) (w2 v) (w3 v)
  | I1 => W4 (w0 v) a (w2 v) (w3 v)
  | I2 => W4 (w0 v) (w1 v) a (w3 v)
  | I3 => W4 (w0 v) (w1 v) (w2 v) a
  end.
Definition vconst {A} (a : A) : vec4 A := W4 a a a a.
(** matrix.rs 9-12: [mat: [[T; 4]; 4]], rows first. *)
Definition Matrix4 (T : Type) := vec4 (vec4 T).
Definition mget {A} (m : Matrix4 A) (r c : ix) : A := vget (vget m r) c.
Definition mset {A} (m : Matrix4 A) (r c : ix) (a : A) : Matrix4 A := vset m r (vset (vget m r) c a).

(** [for i in 0..4] and [for i in (0..4).rev()]. *)
Definition for4 {S} (s : S) (body : ix -> S -> out S) : out S :=
  s <~ body I0 s ;; s <~ body I1 s ;; s <~ body I2 s ;; body I3 s.
Definition for4_rev {S} (s : S) (body : ix -> S -> out S) : out S :=
  s <~ body I3 s ;; s <~ body I2 s ;; s <~ body I1 s ;; body I0 s.

(** matrix.rs 103-111 *)
Definition mat4swap {A} (m : Matrix4 A) (r0 c0 r1 c1 : ix) : Matrix4 A :=
  let tmp := mget m r0 c0 in mset (mset m r0 c0 (mget m r1 c1)) r1 c1 tmp.

Section Matrices.
  Context {T : Type} (E : Elem T).
  (** 25-33 *)
  Definition m4_transpose (m : Matrix4 T) : Matrix4 T :=
    W4 (W4 (mget m I0 I0) (mget m I1 I0) (mget m I2 I0) (mget m I3 I0))
       (W4 (mget m I0 I1) (mget m I1 I1) (mget m I2 I1) (mget m I3 I1))
       (W4 (mget m I0 I2) (mget m I1 I2) (mget m I2 I2) (mget m I3 I2))
       (W4 (mget m I0 I3) (mget m I1 I3) (mget m I2 I3) (mget m I3 I3)).
  (** 123-135 *)
  Definition m4_add (a b : Matrix4 T) : out (Matrix4 T) :=
    for4 (vconst (vconst (e_from_int E 0))) (fun r mat =>
    for4 mat (fun c mat => x <~ e_add E (mget a r c) (mget b r c) ;; !(mset mat r c x))).
  (** 137-151: [(0..4).map(|i| ..).fold(0, Add::add)] *)
  Definition m4_mul (a b : Matrix4 T) : out (Matrix4 T) :=
    for4 (vconst (vconst (e_from_int E 0))) (fun r mat =>
    for4 mat (fun c mat =>
      x <~ for4 (e_from_int E 0) (fun i acc => p <~ e_mul E (mget a r i) (mget b i c) ;; e_add E acc p) ;;
      !(mset mat r c x))).
  (** 153-160: panics for i >= 4. *)
  Definition m4_index (m : Matrix4 T) (i : nat) : out (vec4 T) :=
    match i with 0 => !(w0 m) | 1 => !(w1 m) | 2 => !(w2 m) | 3 => !(w3 m) | _ => Panic end.
  (** Derived PartialEq of [[T; 4]; 4]. *)
  Definition v4_eq (u v : vec4 T) : bool :=
    e_eq E (w0 u) (w0 v) && e_eq E (w1 u) (w1 v) && e_eq E (w2 u) (w2 v) && e_eq E (w3 u) (w3 v).
  Definition m4_eq (a b : Matrix4 T) : bool :=
    v4_eq (w0 a) (w0 b) && v4_eq (w1 a) (w1 b) && v4_eq (w2 a) (w2 b) && v4_eq (w3 a) (w3 b).
End Matrices.

(** 113-121: [as_] converts an element to Float. *)
Definition to_mat4f {T F} (zero : F) (as_ : T -> F) (m : Matrix4 T) : out (Matrix4 F) :=
  for4 (vconst (vconst zero)) (fun r mat => for4 mat (fun c mat => !(mset mat r c (as_ (mget m r c))))).

(** ** Matrix4::inverse (35-100). The element operations are those of Float; no square root is used, so an [Elem] will do. *)
Section Inverse.
  Context {F : Type} (E : Elem F).
  (** The two calls of [panic!] (55 and 70) are arguments, so that they can be told apart; see [m4_inverse]. *)
  Variables first_panic second_panic : forall A, out A.

  (** 44-59: choose the pivot. [ipiv] counts how often a column was chosen. *)
  Definition choose_pivot (minv : Matrix4 F) (ipiv : vec4 N) : out (F * ix * ix) :=
    for4 (e_from_int E 0, I0, I0) (fun j s =>
      if negb (vget ipiv j =? 1)%N then
        for4 s (fun k s =>
          let '(big, irow, icol) := s in
          if (vget ipiv k =? 0)%N then
            a <~ e_abs E (mget minv j k) ;;
            if e_le E big a then !(a, j, k) else !s
          else if (1 <? vget ipiv k)%N then first_panic _ else !s)
      else !s).
  (** 61-66 *)
  Definition swap_rows (minv : Matrix4 F) (irow icol : ix) : out (Matrix4 F) :=
    if negb (ix_eqb irow icol) then for4 minv (fun k m => !(mat4swap m irow k icol k)) else !minv.
  (** 73-78: scale the pivot row. *)
  Definition scale_row (minv : Matrix4 F) (icol : ix) : out (Matrix4 F) :=
    pivinv <~ e_div E (e_from_int E 1) (mget minv icol icol) ;;
    for4 (mset minv icol icol (e_from_int E 1)) (fun j m =>
      x <~ e_mul E (mget m icol j) pivinv ;; !(mset m icol j x)).
  (** 80-89: subtract it from the other rows. *)
  Definition clear_column (minv : Matrix4 F) (icol : ix) : out (Matrix4 F) :=
    for4 minv (fun j m =>
      if negb (ix_eqb j icol) then
        let save := mget m j icol in
        for4 (mset m j icol (e_from_int E 0)) (fun k m =>
          p <~ e_mul E (mget m icol k) save ;; x <~ e_sub E (mget m j k) p ;; !(mset m j k x))
      else !m).
  (** The variables of the function: minv, ipiv, indxr, indxc. *)
  Record inv_state := IS { is_minv : Matrix4 F; is_ipiv : vec4 N; is_indxr : vec4 ix; is_indxc : vec4 ix }.
  (** 40-90: one round of the main loop. *)
  Definition inverse_step (i : ix) (s : inv_state) : out inv_state :=
    p <~ choose_pivot (is_minv s) (is_ipiv s) ;;
    let '(_, irow, icol) := p in
    let ipiv := vset (is_ipiv s) icol (vget (is_ipiv s) icol + 1)%N in
    minv <~ swap_rows (is_minv s) irow icol ;;
    let indxr := vset (is_indxr s) i irow in
    let indxc := vset (is_indxc s) i icol in
    if e_eq E (mget minv icol icol) (e_from_int E 0) then second_panic _
    else
      minv <~ scale_row minv icol ;;
      minv <~ clear_column minv icol ;;
      !(IS minv ipiv indxr indxc).
  (** 91-99: undo the row swaps by column swaps, in reverse order. *)
  Definition swap_columns (s : inv_state) : out (Matrix4 F) :=
    for4_rev (is_minv s) (fun j m =>
      let r := vget (is_indxr s) j in let c := vget (is_indxc s) j in
      if negb (ix_eqb r c) then for4 m (fun k m => !(mat4swap m k r k c)) else !m).
  Definition inverse_with (m : Matrix4 F) : out (Matrix4 F) :=
    s <~ for4 (IS m (vconst 0%N) (vconst I0) (vconst I0)) inverse_step ;;
    swap_columns s.
End Inverse.
Arguments IS {F}. Arguments is_minv {F}. Arguments is_ipiv {F}. Arguments is_indxr {F}. Arguments is_indxc {F}.

(** Inverse of a matrix of Floats, and of any element type after conversion (39). *)
Definition m4_inverse {F} (E : Elem F) (m : Matrix4 F) : out (Matrix4 F) := inverse_with E (@Panic) (@Panic) m.
Definition m4_inverse_of {T F} (E : Elem F) (as_ : T -> F) (m : Matrix4 T) : out (Matrix4 F) :=
  m' <~ to_mat4f (e_from_int E 0) as_ m ;; m4_inverse E m'.

(** ** transform.rs *)
(** 3-7 *)
Record Transform (F : Type) := mkT { t_m : Matrix4 F; t_inv : Matrix4 F }.
Arguments mkT {F}. Arguments t_m {F}. Arguments t_inv {F}.

Section Transforms.
  Context {F : Type} (FT : FloatT F).
  Notation zero := (e_from_int FT 0).
  Notation one := (e_from_int FT 1).
  (** 14-16 *)
  Definition t_new_ (m : Matrix4 F) : out (Transform F) := i <~ m4_inverse FT m ;; !(mkT m i).
  (** 18-20 *)
  Definition t_inverse (t : Transform F) : Transform F := mkT (t_inv t) (t_m t).
  (** 22-24 *)
  Definition t_transpose (t : Transform F) : Transform F := mkT (m4_transpose (t_m t)) (m4_transpose (t_inv t)).
  (** 26-33 *)
  Definition t_is_identity (t : Transform F) : bool :=
    m4_eq FT (t_m t) (W4 (W4 one zero zero zero) (W4 zero one zero zero) (W4 zero zero one zero) (W4 zero zero zero one)).
  (** 35-50 *)
  Definition t_translate (d : Vector3 F) : out (Transform F) :=
    nx <~ e_neg FT (vx d) ;; ny <~ e_neg FT (vy d) ;; nz <~ e_neg FT (vz d) ;;
    !(mkT (W4 (W4 one zero zero (vx d)) (W4 zero one zero (vy d)) (W4 zero zero one (vz d)) (W4 zero zero zero one))
          (W4 (W4 one zero zero nx) (W4 zero one zero ny) (W4 zero zero one nz) (W4 zero zero zero one))).
  (** 52-67: the last row of the second matrix is [0, 0, z, 1]. *)
  Definition t_scale (x y z : F) : out (Transform F) :=
    ix <~ e_div FT one x ;; iy <~ e_div FT one y ;; iz <~ e_div FT one z ;;
    !(mkT (W4 (W4 x zero zero zero) (W4 zero y zero zero) (W4 zero zero z zero) (W4 zero zero zero one))
          (W4 (W4 ix zero zero zero) (W4 zero iy zero zero) (W4 zero zero iz zero) (W4 zero zero z one))).
  (** vector.rs 137-146; [as_] converts an element to Float. *)
  Definition v3_transform {T} (as_ : T -> F) (v : Vector3 T) (t : Transform F) : out (Vector3 F) :=
    let x := as_ (vx v) in let y := as_ (vy v) in let z := as_ (vz v) in
    let row r := !(mget (t_m t) r I0) *[FT] !x +[FT] !(mget (t_m t) r I1) *[FT] !y +[FT] !(mget (t_m t) r I2) *[FT] !z in
    mk3 V3 (row I0) (row I1) (row I2).
  (** 69-74. [||] evaluates all three lengths first (they are let-bound). *)
  Definition t_has_scale (t : Transform F) : out bool :=
    a <~ v3_transform (fun x => x) (V3 one zero zero) t ;; la2 <~ v3_len_sq FT a ;;
    b <~ v3_transform (fun x => x) (V3 zero one zero) t ;; lb2 <~ v3_len_sq FT b ;;
    c <~ v3_transform (fun x => x) (V3 zero zero one) t ;; lc2 <~ v3_len_sq FT c ;;
    !(not_one FT la2 || not_one FT lb2 || not_one FT lc2).
End Transforms.
