(** Rules for the programs of TraceModel.v: they compute what TokModel.v and ParModel.v compute, and what they record. *)
From Verif Require Import Base TraceModel.

Section Ob.
Context {St : Type} (idx : St -> nat) (top i0 : nat).

(** From [s] both programs end alike, and [Q] holds of the value, the state, the number of looks and the number of looks
    at [i0]; no look goes beyond [top]. *)
Definition ob {A} (s : St) (mc : M (St * list nat) A) (m : M St A) (Q : A -> St -> nat -> nat -> Prop) : Prop :=
  match m s with
  | Done (a, s') => exists d, (forall l, mc (s, l) = Done (a, (s', d ++ l))) /\ Forall (fun i => i <= top) d /\
                              Q a s' (length d) (count_occ Nat.eq_dec d i0)
  | Panic => forall l, mc (s, l) = Panic
  | OutOfFuel => forall l, mc (s, l) = OutOfFuel
  end.

Lemma ob_weak {A} s mc (m : M St A) (Q Q' : A -> St -> nat -> nat -> Prop) :
  ob s mc m Q -> (forall a s' n k, Q a s' n k -> Q' a s' n k) -> ob s mc m Q'.
Proof.
  unfold ob. destruct (m s) as [[a s']| |]; auto. intros (d & E & H & HQ) Imp. exists d. auto.
Qed.
Lemma ob_ret {A} s (a : A) (Q : A -> St -> nat -> nat -> Prop) : Q a s 0 0 -> ob s (ret a) (ret a) Q.
Proof. intros HQ. exists []. repeat split; auto. Qed.
Lemma ob_panic {A} s (Q : A -> St -> nat -> nat -> Prop) : ob s panic panic Q.
Proof. intros l. reflexivity. Qed.
Lemma ob_fuel {A} s (Q : A -> St -> nat -> nat -> Prop) : ob s out_of_fuel out_of_fuel Q.
Proof. intros l. reflexivity. Qed.
Lemma ob_bind {A B} s mc (m : M St A) kc (k : A -> M St B) (Q : B -> St -> nat -> nat -> Prop) :
  ob s mc m (fun a s1 n1 k1 => ob s1 (kc a) (k a) (fun b s2 n2 k2 => Q b s2 (n1 + n2) (k1 + k2))) ->
  ob s (bind mc kc) (bind m k) Q.
Proof.
  unfold ob, bind. destruct (m s) as [[a s1]| |]; [|intros E l; now rewrite E..].
  intros (d & E & Hd & H). destruct (k a s1) as [[b s2]| |].
  - destruct H as (d2 & E2 & Hd2 & HQ). exists (d2 ++ d). repeat split.
    + intros l. rewrite E, E2. now rewrite app_assoc.
    + apply Forall_app. auto.
    + rewrite app_length, count_occ_app, Nat.add_comm, (Nat.add_comm (count_occ _ _ _)). exact HQ.
  - intros l. rewrite E. apply H.
  - intros l. rewrite E. apply H.
Qed.
Lemma ob_tryb {A B X} s mc (m : M St (result A X)) kc (k : A -> M St (result B X)) (Q : result B X -> St -> nat -> nat -> Prop) :
  ob s mc m (fun r s1 n1 k1 => match r with
                               | Ok a => ob s1 (kc a) (k a) (fun b s2 n2 k2 => Q b s2 (n1 + n2) (k1 + k2))
                               | Err e => Q (Err e) s1 n1 k1
                               end) ->
  ob s (tryb mc kc) (tryb m k) Q.
Proof.
  intros H. apply ob_bind. eapply ob_weak; [exact H|]. intros [a|e] s' n1 k1 HQ; [exact HQ|].
  apply ob_ret. now rewrite !Nat.add_0_r.
Qed.
Lemma ob_look {A} s (m : M St A) a s' (Q : A -> St -> nat -> nat -> Prop) :
  m s = Done (a, s') -> idx s <= top -> (forall k, (idx s = i0 -> k = 1) -> (idx s <> i0 -> k = 0) -> Q a s' 1 k) ->
  ob s (look idx m) m Q.
Proof.
  intros E L H. unfold ob. rewrite E. exists [idx s]. repeat split.
  - intros l. unfold look. cbn. now rewrite E.
  - auto.
  - apply H; cbn; destruct (Nat.eq_dec (idx s) i0); congruence.
Qed.
Lemma ob_unseen {A} s (m : M St A) (Q : A -> St -> nat -> nat -> Prop) :
  (forall a s', m s = Done (a, s') -> Q a s' 0 0) -> ob s (unseen m) m Q.
Proof.
  intros H. unfold ob, unseen. cbn. destruct (m s) as [[a s']| |]; [|reflexivity..].
  exists []. repeat split; auto.
Qed.
Lemma ob_lift {A} s (o : out A) (Q : A -> St -> nat -> nat -> Prop) :
  (forall a, o = Done a -> Q a s 0 0) -> ob s (lift o) (lift o) Q.
Proof.
  intros H. unfold ob, lift. destruct o; cbn; [|reflexivity..]. exists []. repeat split; auto.
Qed.
End Ob.
