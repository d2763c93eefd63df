(** Common vocabulary of the model: outcomes, Rust [Result], the state monad,
    machine integers and characters. *)
From Coq Require Export String Ascii Arith NArith ZArith Lia Bool.
From Coq Require Export List.
Export ListNotations.
Open Scope list_scope.
Open Scope nat_scope.
Global Arguments Z.mul : simpl never.
Global Arguments Z.add : simpl never.
Global Arguments Z.sub : simpl never.
Global Arguments Z.of_N : simpl never.
Global Arguments Z.to_N : simpl never.
Global Arguments N.sub : simpl never.
Global Arguments N.mul : simpl never.
Global Arguments N.add : simpl never.

(** Outcome of running a Rust function: it returns, it panics, or (model artefact)
    the fuel given to a loop of the model was exhausted. *)
Inductive out (A : Type) : Type :=
| Done (a : A)
| Panic
| OutOfFuel.
Arguments Done {A} a.
Arguments Panic {A}.
Arguments OutOfFuel {A}.

(** Rust [Result<A, E>]. *)
Inductive result (A E : Type) : Type :=
| Ok (a : A)
| Err (e : E).
Arguments Ok {A E} a.
Arguments Err {A E} e.

(** A Rust method [fn m(&mut self, ..) -> A]: takes the state, returns the value and the new state. *)
Definition M (S A : Type) : Type := S -> out (A * S).

Definition ret {S A} (a : A) : M S A := fun s => Done (a, s).
Definition bind {S A B} (m : M S A) (k : A -> M S B) : M S B :=
  fun s => match m s with
           | Done (a, s') => k a s'
           | Panic => Panic
           | OutOfFuel => OutOfFuel
           end.
(** The [?] operator: on [Err e] return [Err e] with the state reached so far. *)
Definition tryb {S A B E} (m : M S (result A E)) (k : A -> M S (result B E)) : M S (result B E) :=
  bind m (fun r => match r with Ok a => k a | Err e => ret (Err e) end).
Definition get {S} : M S S := fun s => Done (s, s).
Definition put {S} (s' : S) : M S unit := fun _ => Done (tt, s').
Definition panic {S A} : M S A := fun _ => Panic.
Definition out_of_fuel {S A} : M S A := fun _ => OutOfFuel.
(** Run a computation that has no state (machine arithmetic) inside a method. *)
Definition lift {S A} (o : out A) : M S A :=
  fun s => match o with Done a => Done (a, s) | Panic => Panic | OutOfFuel => OutOfFuel end.

Definition obind {A B} (m : out A) (k : A -> out B) : out B :=
  match m with Done a => k a | Panic => Panic | OutOfFuel => OutOfFuel end.

Declare Scope mon_scope.
Delimit Scope mon_scope with mon.
Notation "x <- m ;; k" := (bind m (fun x => k)) (at level 61, m at next level, right associativity) : mon_scope.
Notation "x <-? m ;; k" := (tryb m (fun x => k)) (at level 61, m at next level, right associativity) : mon_scope.
Notation "x <~ m ;; k" := (obind m (fun x => k)) (at level 61, m at next level, right associativity) : mon_scope.

(** ** Machine integers. [isize] and [i64] are both 64-bit two's complement here. *)
Definition int_min : Z := (- 2 ^ 63)%Z.
Definition int_max : Z := (2 ^ 63 - 1)%Z.
Definition in_range (z : Z) : bool := ((int_min <=? z) && (z <=? int_max))%Z%bool.
(** Two's complement wrap-around to 64 bits. *)
Definition wrap (z : Z) : Z := ((z + 2 ^ 63) mod 2 ^ 64 - 2 ^ 63)%Z.
(** Result of an arithmetic operation whose exact value is [z]:
    [chk = true]  - overflow checks on (debug profile): panic on overflow;
    [chk = false] - overflow checks off (release profile): wrap. *)
Definition arith (chk : bool) (z : Z) : out Z :=
  if in_range z then Done z else if chk then Panic else Done (wrap z).

(** ** Characters and strings. A Rust [char] is its code point; a [String] is a list of them. *)
Notation char := N (only parsing).
Notation str := (list N) (only parsing).

Fixpoint s2l (s : string) : str :=
  match s with
  | EmptyString => []
  | String a t => N_of_ascii a :: s2l t
  end.

Fixpoint str_eqb (a b : str) : bool :=
  match a, b with
  | [], [] => true
  | x :: a', y :: b' => (x =? y)%N && str_eqb a' b'
  | _, _ => false
  end.

Definition c_lf : char := 10%N.
Definition c_cr : char := 13%N.
Definition c_quote : char := 34%N.   (* double quote *)
Definition c_hash : char := 35%N.    
Definition c_plus : char := 43%N.
Definition c_minus : char := 45%N.
Definition c_dot : char := 46%N.
Definition c_0 : char := 48%N.
Definition c_9 : char := 57%N.
Definition c_lbrack : char := 91%N.
Definition c_bslash : char := 92%N.
Definition c_rbrack : char := 93%N.
Definition c_e : char := 101%N.
Definition c_n : char := 110%N.

(** ASCII decimal digits. *)
Definition is_ascii_digit (c : char) : bool := ((c_0 <=? c) && (c <=? c_9))%N.
Definition is_ascii_alpha (c : char) : bool :=
  (((65 <=? c) && (c <=? 90)) || ((97 <=? c) && (c <=? 122)))%N.

(** [char::is_whitespace]: the Unicode property White_Space (complete table). *)
Definition is_whitespace (c : char) : bool :=
  (((9 <=? c) && (c <=? 13)) || (c =? 32) || (c =? 133) || (c =? 160) || (c =? 5760)
   || ((8192 <=? c) && (c <=? 8202)) || (c =? 8232) || (c =? 8233) || (c =? 8239)
   || (c =? 8287) || (c =? 12288))%N.

(** [char::is_numeric] and [char::is_alphabetic] depend on Unicode tables; the model takes them as
    arguments. Everything proved quantifies over this record. *)
Record CharClass := mkCC {
  is_numeric : char -> bool;
  is_alphabetic : char -> bool
}.
Definition is_alphanumeric (cc : CharClass) (c : char) : bool := is_alphabetic cc c || is_numeric cc c.

(** What is assumed of the tables where a theorem says so: on ASCII they are the usual classes, and no
    white space character is numeric or alphabetic. *)
Record cc_ok (cc : CharClass) : Prop := {
  cc_num_ascii : forall c, (c < 128)%N -> is_numeric cc c = is_ascii_digit c;
  cc_alpha_ascii : forall c, (c < 128)%N -> is_alphabetic cc c = is_ascii_alpha c;
  cc_ws_num : forall c, is_whitespace c = true -> is_numeric cc c = false;
  cc_ws_alpha : forall c, is_whitespace c = true -> is_alphabetic cc c = false
}.

(** A concrete instance (ASCII only), used by the examples. *)
Definition cc_ascii : CharClass := mkCC is_ascii_digit is_ascii_alpha.

(** Floats as the parser uses them (src/core/mod.rs 31-34: [Float] is f32 or f64). *)
Record FloatOps (F : Type) := mkFO {
  f_dec : bool -> N -> nat -> F;      (* [f_dec neg m k]: the literal (-)m * 10^-k, as converted by str::parse::<Float> *)
  f_mul : F -> F -> F;                (* multiplication *)
  f_powf10 : F -> F;                  (* Float::powf(10.0, x) *)
  f_of_isize : Z -> F                 (* i as Float *)
}.
Arguments f_dec {F}. Arguments f_mul {F}. Arguments f_powf10 {F}. Arguments f_of_isize {F}.

(** Symbolic floats, used by the examples: they record how the value was computed. *)
Inductive sfloat := SDec (neg : bool) (m : N) (k : nat) | SMul (a b : sfloat) | SPow10 (a : sfloat) | SInt (z : Z).
Definition fo_sym : FloatOps sfloat := mkFO sfloat SDec SMul SPow10 SInt.
