(** Model of src/bin/pbrt.rs 10-20 and of the derived [Debug] of Matrix4 (matrix.rs 9-12) as [{:#?}] writes it.
    The text that [{:#?}] writes for a float depends on the version of the standard library and is an argument. *)
From Verif Require Import Base Elem MatModel RenderModel TokModel.
Local Open Scope mon_scope.

(** [core::fmt]'s PadAdapter: four spaces in front of every line; [on]: at the start of a line. *)
Fixpoint pad (on : bool) (s : str) : str :=
  match s with
  | [] => []
  | c :: r => (if on then s2l "    " else []) ++ c :: pad (c =? c_lf)%N r
  end.
(** [core::fmt]'s DebugList and DebugStruct with [{:#?}]: every entry on lines of its own, followed by a comma. *)
Definition dbg_entry (e : str) : str := pad true (e ++ s2l "," ++ [c_lf]).
Definition dbg_list (entries : list str) : str :=
  s2l "[" ++ match entries with [] => [] | _ => c_lf :: flat_map dbg_entry entries end ++ s2l "]".
Definition dbg_struct (name : str) (fields : list (str * str)) : str :=
  name ++ match fields with
          | [] => []
          | _ => s2l " {" ++ c_lf :: flat_map (fun x => dbg_entry (fst x ++ s2l ": " ++ snd x)) fields ++ s2l "}"
          end.
Section Print.
Context {F : Type} (show : F -> str).
Definition w_list {A} (v : vec4 A) : list A := [w0 v; w1 v; w2 v; w3 v].
(** matrix.rs 9-12, derived [Debug] *)
Definition dbg_m4 (m : Matrix4 F) : str :=
  dbg_struct (s2l "Matrix4") [(s2l "mat", dbg_list (map (fun row => dbg_list (map show (w_list row))) (w_list m)))].
End Print.

(** pbrt.rs 18 *)
Definition main_mat : Matrix4 Z := (W4 (W4 7 1 9 5) (W4 4 5 2 4) (W4 3 7 8 8) (W4 1 9 8 9))%Z.
(** pbrt.rs 10-20: what the program writes to its standard output. *)
Definition main_out {F} (E : Elem F) (as_ : Z -> F) (show : F -> str) : out str :=
  b <~ m4_inverse_of E as_ main_mat ;; Done (dbg_m4 show b ++ [c_lf]).
