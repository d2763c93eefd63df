(** Proofs about derived equality. *)
From Coq Require Import Reals Lra.
From Flocq Require Import Core.Core IEEE754.BinarySingleNaN.
From Verif Require Import Base TokModel ParModel RenderModel Elem FloatInst GeoModel MatModel BuildSpec EqModel EqSpec.
Close Scope R_scope.

Lemma str_eqb_iff a : forall b, str_eqb a b = true <-> a = b.
Proof.
  induction a as [|x a IH]; intros [|y b]; cbn; split; try discriminate; try reflexivity; try (now intros).
  - intros H. apply andb_true_iff in H. destruct H as [H1 H2]. apply N.eqb_eq in H1. apply IH in H2. now subst.
  - intros H. injection H as -> ->. rewrite N.eqb_refl. now apply IH.
Qed.
Lemma component_eq_iff a b : component_eq a b = true <-> a = b.
Proof.
  destruct a, b; cbn; split; try discriminate; try reflexivity.
  - intros H. apply str_eqb_iff in H. now subst.
  - intros H. injection H as ->. now apply str_eqb_iff.
Qed.
Lemma vec_eq_iff {A} (eq : A -> A -> bool) (H : forall a b, eq a b = true <-> a = b) l : forall l', vec_eq eq l l' = true <-> l = l'.
Proof.
  induction l as [|x l IH]; intros [|y l']; cbn; split; try discriminate; try reflexivity.
  - intros K. apply andb_true_iff in K. destruct K as [K1 K2]. apply H in K1. apply IH in K2. now subst.
  - intros K. injection K as -> ->. apply andb_true_iff. split; [now apply H|now apply IH].
Qed.
Lemma path_eq_iff s t : path_eq s t = true <-> components s = components t.
Proof. apply vec_eq_iff. exact component_eq_iff. Qed.

(** ** Paths *)
Definition tailstr (l : list str) : str := flat_map (fun x => c_slash :: x) l.
Lemma split_join s : exists h tl, split_slash s = h :: tl /\ s = h ++ tailstr tl /\ ~ In c_slash h /\ Forall (fun x => ~ In c_slash x) tl.
Proof.
  induction s as [|c s (h & tl & E & -> & Hh & Ht)]; [exists [], []; cbn; auto|].
  cbn [split_slash]. destruct (N.eqb_spec c c_slash) as [->|D].
  - exists [], (h :: tl). rewrite E. cbn. auto.
  - rewrite E. exists (c :: h), tl. cbn. split; [reflexivity|]. split; [reflexivity|]. split; [|exact Ht]. intros [K|K]; [now apply D|now apply Hh].
Qed.
Lemma split_app a : ~ In c_slash a -> forall b, split_slash (a ++ b) =
  match split_slash b with h :: r => (a ++ h) :: r | [] => [a] end.
Proof.
  induction a as [|c a IH]; intros H b; cbn [app split_slash].
  - destruct (split_join b) as (h & tl & E & _). now rewrite E.
  - destruct (N.eqb_spec c c_slash) as [->|D]; [exfalso; apply H; now left|].
    rewrite IH by (intros K; apply H; now right). destruct (split_join b) as (h & tl & E & _). now rewrite E.
Qed.
Lemma split_slash_app a b : split_slash (a ++ c_slash :: b) = split_slash a ++ split_slash b.
Proof.
  induction a as [|c a IH]; cbn [app split_slash]; [reflexivity|].
  rewrite IH. destruct (c =? c_slash)%N; [reflexivity|]. destruct (split_join a) as (h & tl & E & _). now rewrite E.
Qed.
Definition keep (x : str) : bool := negb (str_eqb x []) && negb (str_eqb x (s2l ".")).
Lemma keep_comp l : flat_map component_of l = flat_map component_of (filter keep l).
Proof.
  induction l as [|x l IH]; [reflexivity|]. cbn [flat_map filter]. unfold keep at 1. unfold component_of at 1.
  destruct (str_eqb x []) eqn:E1; cbn [negb andb app]; [exact IH|].
  destruct (str_eqb x (s2l ".")) eqn:E2; cbn [negb andb app]; [exact IH|].
  cbn [flat_map]. unfold component_of at 2. rewrite E1, E2. now rewrite IH.
Qed.
Lemma comp_inj l : forall l', Forall (fun x => keep x = true) l -> Forall (fun x => keep x = true) l' ->
  flat_map component_of l = flat_map component_of l' -> l = l'.
Proof.
  assert (C : forall x, keep x = true -> exists c, component_of x = [c] /\ (forall y, keep y = true -> component_of y = [c] -> x = y)).
  { intros x K. unfold keep in K. apply andb_true_iff in K. destruct K as [K1 K2]. apply negb_true_iff in K1, K2.
    unfold component_of. rewrite K1, K2. destruct (str_eqb x (s2l "..")) eqn:K3.
    - eexists. split; [reflexivity|]. intros y L. unfold keep in L. apply andb_true_iff in L. destruct L as [L1 L2]. apply negb_true_iff in L1, L2.
      rewrite L1, L2. destruct (str_eqb y (s2l "..")) eqn:L3; [|discriminate]. intros _. apply str_eqb_iff in K3, L3. congruence.
    - eexists. split; [reflexivity|]. intros y L. unfold keep in L. apply andb_true_iff in L. destruct L as [L1 L2]. apply negb_true_iff in L1, L2.
      rewrite L1, L2. destruct (str_eqb y (s2l "..")) eqn:L3; [discriminate|]. intros H. now injection H. }
  induction l as [|x l IH]; intros [|y l'] H H' E; [reflexivity| | |].
  - inversion H' as [|? ? Ky _]; subst. destruct (C y Ky) as (c & Ec & _). cbn in E. rewrite Ec in E. discriminate E.
  - inversion H as [|? ? Ky _]; subst. destruct (C x Ky) as (c & Ec & _). cbn in E. rewrite Ec in E. discriminate E.
  - inversion H as [|? ? Kx Hl]; inversion H' as [|? ? Ky Hl']; subst.
    destruct (C x Kx) as (c & Ec & J). destruct (C y Ky) as (d & Ed & _). cbn in E. rewrite Ec, Ed in E. cbn in E.
    injection E as -> E. f_equal; [now apply J|now apply IH].
Qed.
Lemma keep_filter l : Forall (fun x => keep x = true) (filter keep l).
Proof. apply Forall_forall. intros x H. now apply filter_In in H. Qed.

(** Removing empty pieces and dots after a non-empty beginning. *)
Lemma tail_path tl : forall a, a <> [] -> same_path (a ++ tailstr tl) (a ++ tailstr (filter keep tl)).
Proof.
  induction tl as [|x tl IH]; intros a Ha; [apply sp_refl|]. cbn [filter]. unfold keep at 1.
  destruct (str_eqb x []) eqn:E1; cbn [negb andb].
  - apply str_eqb_iff in E1. subst x. eapply sp_trans; [|apply IH, Ha]. destruct tl as [|y tl].
    + cbn. rewrite app_nil_r. now apply (sp_last a).
    + exact (sp_double a (y ++ tailstr tl)).
  - destruct (str_eqb x (s2l ".")) eqn:E2; cbn [negb andb].
    + apply str_eqb_iff in E2. subst x. eapply sp_trans; [|apply IH, Ha]. destruct tl as [|y tl].
      * cbn. rewrite app_nil_r. eapply sp_trans; [exact (sp_last_dot a)|now apply (sp_last a)].
      * exact (sp_dot a (y ++ tailstr tl)).
    + cbn [tailstr flat_map]. change (same_path (a ++ ((c_slash :: x) ++ tailstr tl)) (a ++ ((c_slash :: x) ++ tailstr (filter keep tl)))).
      rewrite !app_assoc. apply IH. destruct a; [easy|discriminate].
Qed.
Definition rooted (tl : list str) : str :=
  match filter keep tl with [] => match tl with [] => [] | _ => [c_slash] end | l => tailstr l end.
Lemma root_path tl : same_path (tailstr tl) (rooted tl).
Proof.
  induction tl as [|x tl IH]; [apply sp_refl|]. unfold rooted. cbn [filter]. unfold keep at 1.
  destruct (str_eqb x []) eqn:E1; cbn [negb andb].
  - apply str_eqb_iff in E1. subst x. destruct tl as [|y tl]; [apply sp_refl|].
    eapply sp_trans; [exact (sp_double [] (y ++ tailstr tl))|]. exact IH.
  - destruct (str_eqb x (s2l ".")) eqn:E2; cbn [negb andb].
    + apply str_eqb_iff in E2. subst x. destruct tl as [|y tl]; [exact (sp_last_dot [])|].
      eapply sp_trans; [exact (sp_dot [] (y ++ tailstr tl))|]. exact IH.
    + cbn [tailstr flat_map]. exact (tail_path tl (c_slash :: x) (fun H => nil_cons (eq_sym H))).
Qed.

(** A path, put together again from its components. *)
Fixpoint join (l : list str) : str := match l with [] => [] | [x] => x | x :: l => x ++ c_slash :: join l end.
Definition piece_of (c : component) : str := match c with CRoot => [] | CCurDir => s2l "." | CParentDir => s2l ".." | CNormal s => s end.
Definition tidy (s : str) : str := match components s with [CRoot] => [c_slash] | l => join (map piece_of l) end.
Lemma join_tail h tl : join (h :: tl) = h ++ tailstr tl.
Proof.
  revert h. induction tl as [|x tl IH]; intros h; [cbn; now rewrite app_nil_r|].
  change (join (h :: x :: tl)) with (h ++ c_slash :: join (x :: tl)). rewrite IH. reflexivity.
Qed.
Lemma piece_keep l : map piece_of (flat_map component_of l) = filter keep l.
Proof.
  induction l as [|x l IH]; [reflexivity|]. cbn [flat_map filter]. unfold keep at 1, component_of at 1.
  destruct (str_eqb x []) eqn:E1; cbn [negb andb app]; [exact IH|].
  destruct (str_eqb x (s2l ".")) eqn:E2; cbn [negb andb app]; [exact IH|].
  destruct (str_eqb x (s2l "..")) eqn:E3; cbn [app map piece_of]; rewrite IH; [|reflexivity].
  apply str_eqb_iff in E3. now subst.
Qed.
Lemma no_slash_root h tl : ~ In c_slash h -> has_root (h ++ tailstr tl) = match h, tl with [], _ :: _ => true | _, _ => false end.
Proof.
  intros H. destruct h as [|c h]; cbn.
  - destruct tl; reflexivity.
  - destruct (N.eqb_spec c c_slash) as [->|D]; [exfalso; apply H; now left|reflexivity].
Qed.
Lemma cur_dir h tl : ~ In c_slash h -> include_cur_dir (h ++ tailstr tl) = str_eqb h (s2l ".").
Proof.
  intros H. destruct h as [|c [|d h]].
  - destruct tl as [|x tl]; [reflexivity|]. cbn. destruct (x ++ flat_map _ tl); reflexivity.
  - destruct tl as [|x tl]; cbn; [now rewrite andb_true_r|]. now rewrite !andb_true_r.
  - cbn. destruct (N.eqb_spec d c_slash) as [->|D]; [exfalso; apply H; cbn; auto|]. now rewrite !andb_false_r.
Qed.
Lemma filter_cons_false l x : keep x = false -> filter keep (x :: l) = filter keep l.
Proof. intros H. cbn. now rewrite H. Qed.
Lemma tidy_same s : same_path s (tidy s).
Proof.
  destruct (split_join s) as (h & tl & E & -> & Hh & _). unfold tidy, components. rewrite E, (no_slash_root h tl Hh), (cur_dir h tl Hh).
  destruct h as [|c h].
  - destruct tl as [|x tl]; [apply sp_refl|]. cbn [app flat_map component_of str_eqb].
    eapply sp_trans; [exact (root_path (x :: tl))|]. pose proof (piece_keep (x :: tl)) as P.
    unfold rooted. rewrite <- P. change (component_of x ++ flat_map component_of tl) with (flat_map component_of (x :: tl)). destruct (flat_map component_of (x :: tl)) as [|k l] eqn:K; [apply sp_refl|].
    change (map piece_of (k :: l)) with (piece_of k :: map piece_of l).
    change (map piece_of (CRoot :: k :: l)) with ([] :: piece_of k :: map piece_of l). rewrite join_tail. apply sp_refl.
  - eapply sp_trans; [apply tail_path; discriminate|].
    destruct (str_eqb (c :: h) (s2l ".")) eqn:D.
    + apply str_eqb_iff in D. rewrite D. cbn [flat_map component_of]. change (component_of (s2l ".")) with (@nil component). cbn [app].
      change (map piece_of (CCurDir :: flat_map component_of tl)) with (s2l "." :: map piece_of (flat_map component_of tl)).
      rewrite piece_keep, join_tail. apply sp_refl.
    + assert (K : keep (c :: h) = true) by (unfold keep; now rewrite D).
      assert (M : map piece_of (flat_map component_of ((c :: h) :: tl)) = (c :: h) :: filter keep tl).
      { rewrite piece_keep. cbn [filter]. now rewrite K. }
      cbn [app]. destruct (flat_map component_of ((c :: h) :: tl)) as [|k l]; [discriminate M|].
      assert (J : match k :: l with [CRoot] => [c_slash] | l0 => join (map piece_of l0) end = join (map piece_of (k :: l))).
      { destruct k; try reflexivity. cbn in M. discriminate M. }
      rewrite J, M, join_tail. apply sp_refl.
Qed.
Lemma components_app a b : a <> [] -> components (a ++ c_slash :: b) = components a ++ flat_map component_of (split_slash b).
Proof.
  intros Ha. unfold components. rewrite split_slash_app, flat_map_app, app_assoc. f_equal.
  destruct a as [|c [|d a]]; [easy| |]; cbn; [|reflexivity]. now rewrite andb_true_r.
Qed.
Lemma components_root b : components (c_slash :: b) = CRoot :: flat_map component_of (split_slash b).
Proof. reflexivity. Qed.
Lemma same_components s t : same_path s t -> components s = components t.
Proof.
  induction 1 as [s|s t H IH|s t u H IH H' IH'|a b|a b|a|a Ha]; try congruence.
  - destruct a as [|c a]; [reflexivity|]. change (components ((c :: a) ++ c_slash :: c_slash :: b) = components ((c :: a) ++ c_slash :: b)).
    rewrite !components_app by discriminate. reflexivity.
  - destruct a as [|c a]; [reflexivity|].
    change (components ((c :: a) ++ c_slash :: c_dot :: c_slash :: b) = components ((c :: a) ++ c_slash :: b)).
    rewrite !components_app by discriminate. reflexivity.
  - destruct a as [|c a]; [reflexivity|]. change (components ((c :: a) ++ c_slash :: [c_dot]) = components ((c :: a) ++ c_slash :: [])).
    rewrite !components_app by discriminate. reflexivity.
  - change (components (a ++ c_slash :: []) = components a). rewrite components_app by exact Ha. cbn. now rewrite app_nil_r.
Qed.
Lemma path_eq_same s t : path_eq s t = true <-> same_path s t.
Proof.
  rewrite path_eq_iff. split; [|apply same_components]. intros H. eapply sp_trans; [apply tidy_same|].
  unfold tidy. rewrite H. apply sp_sym, tidy_same.
Qed.
Lemma path_eq_tidy s t : path_eq s t = true <-> tidy s = tidy t.
Proof.
  rewrite path_eq_iff. split; [unfold tidy; now intros ->|]. intros H.
  rewrite (same_components _ _ (tidy_same s)), (same_components _ _ (tidy_same t)). now rewrite H.
Qed.

(** ** Representing equality: [eq x y] says that [x] and [y] have the same image, and that the image is one of a [B]. *)
Section Rep.
Context {A B C : Type} (eq : A -> A -> bool) (m : A -> C) (s : B -> C).
Definition rep_at (x : A) : Prop := forall y, eq x y = true <-> exists z, m x = s z /\ m y = s z.
Definition rep : Prop := forall x, rep_at x.
End Rep.
Lemma rep_vec_at {A B C} (eq : A -> A -> bool) (m : A -> C) (s : B -> C) l : Forall (rep_at eq m s) l -> rep_at (vec_eq eq) (map m) (map s) l.
Proof.
  induction 1 as [|x l Hx _ IH]; intros [|y l']; cbn [vec_eq map].
  - split; [intros _; exists []; now split|reflexivity].
  - split; [discriminate|]. intros ([|z zs] & H1 & H2); discriminate.
  - split; [discriminate|]. intros ([|z zs] & H1 & H2); discriminate.
  - rewrite andb_true_iff, (Hx y), (IH l'). split.
    + intros [(z & E1 & E2) (zs & E3 & E4)]. exists (z :: zs). cbn [map]. now rewrite E1, E2, E3, E4.
    + intros ([|z zs] & H1 & H2); [discriminate|]. injection H1 as H1 H3. injection H2 as H2 H4. split; [now exists z|now exists zs].
Qed.
Lemma rep_vec {A B C} (eq : A -> A -> bool) (m : A -> C) (s : B -> C) : rep eq m s -> rep (vec_eq eq) (map m) (map s).
Proof. intros H l. apply rep_vec_at. apply Forall_forall. intros x _. apply H. Qed.
Lemma rep_id {A} (eq : A -> A -> bool) : (forall x y, eq x y = true <-> x = y) -> rep eq (fun x => x) (fun x => x).
Proof. intros H x y. rewrite H. split; [intros ->; now exists y|]. intros (z & -> & ->). reflexivity. Qed.
Lemma rep_ext {A B C} (eq eq' : A -> A -> bool) (m m' : A -> C) (s s' : B -> C) :
  (forall x y, eq x y = eq' x y) -> (forall x, m x = m' x) -> (forall x, s x = s' x) -> rep eq m s -> rep eq' m' s'.
Proof.
  intros He Hm Hs H x y. rewrite <- He, (H x y), <- !Hm. split; intros (z & E1 & E2); exists z; [now rewrite <- Hs|now rewrite Hs].
Qed.
Lemma pos_eq_iff p q : pos_eq p q = true <-> p = q.
Proof.
  destruct p as [a b], q as [c d]. unfold pos_eq. cbn. rewrite andb_true_iff, !Nat.eqb_eq. split; [intros [-> ->]; reflexivity|].
  intros H. now injection H.
Qed.
Lemma pos_rep p q : pos_eq p q = true <-> exists z, p = z /\ q = z.
Proof. rewrite pos_eq_iff. split; [intros ->; now exists q|]. intros (z & -> & ->). reflexivity. Qed.
Lemma str_rep p q : str_eqb p q = true <-> exists z, p = z /\ q = z.
Proof. rewrite str_eqb_iff. split; [intros ->; now exists q|]. intros (z & -> & ->). reflexivity. Qed.

Section SceneEq.
Context {F G : Type} (feq : F -> F -> bool) (val : F -> option G) (H0 : rep feq val (@Some G)).
(** A normal form of paths. *)
Context (g : str -> str) (Hg : forall s t, path_eq s t = true <-> g s = g t).

Definition MS (x : Spectrum F) : Spectrum (option G) := path_spectrum g (map_spectrum val x).
Definition MPS (x : ParamSet F) : ParamSet (option G) := path_ps g (map_ps val x).
Definition MDS (x : DirectiveStruct F) : DirectiveStruct (option G) := path_ds g (map_ds val x).
Definition MTS (x : TextureStruct F) : TextureStruct (option G) := path_ts g (map_ts val x).
Definition MD (x : Directive F) : Directive (option G) := path_dir g (map_dir val x).
Definition MP (x : PreDirective F) : PreDirective (option G) := path_pre g (map_pre val x).

Lemma path_rep s t : path_eq s t = true <-> exists z, g s = z /\ g t = z.
Proof. rewrite Hg. split; [intros H; now exists (g t)|]. intros (z & -> & ->). reflexivity. Qed.

(** Take the hypotheses apart; put the fields together. *)
Ltac apart := repeat match goal with H : _ /\ _ |- _ => destruct H | H : exists _, _ |- _ => destruct H end.
Ltac fields := cbn; split; f_equal; first [eassumption | congruence].
Ltac back E E' := cbn in E, E'; try discriminate E; try discriminate E'; injection E; injection E'; intros; repeat split; eexists; split; first [eassumption | reflexivity | symmetry; eassumption | congruence].

Lemma r_p2 : rep (p2f_eq feq) (map_p2 val) (map_p2 (@Some G)).
Proof.
  intros [a b] [c d]. unfold p2f_eq. cbn [p2_x p2_y]. rewrite andb_true_iff, (H0 a c), (H0 b d). split.
  - intros; apart. eexists (mkP2 _ _). fields.
  - intros ([u v] & E & E'). back E E'.
Qed.
Lemma r_v2 : rep (v2f_eq feq) (map_v2 val) (map_v2 (@Some G)).
Proof.
  intros [a b] [c d]. unfold v2f_eq. cbn [v2_x v2_y]. rewrite andb_true_iff, (H0 a c), (H0 b d). split.
  - intros; apart. eexists (mkV2 _ _). fields.
  - intros ([u v] & E & E'). back E E'.
Qed.
Lemma r_p3 : rep (p3f_eq feq) (map_p3 val) (map_p3 (@Some G)).
Proof.
  intros [a b e] [c d e']. unfold p3f_eq. cbn [p3_x p3_y p3_z]. rewrite !andb_true_iff, (H0 a c), (H0 b d), (H0 e e'). split.
  - intros; apart. eexists (mkP3 _ _ _). fields.
  - intros ([u v w] & E & E'). back E E'.
Qed.
Lemma r_v3 : rep (v3f_eq feq) (map_v3 val) (map_v3 (@Some G)).
Proof.
  intros [a b e] [c d e']. unfold v3f_eq. cbn [v3_x v3_y v3_z]. rewrite !andb_true_iff, (H0 a c), (H0 b d), (H0 e e'). split.
  - intros; apart. eexists (mkV3 _ _ _). fields.
  - intros ([u v w] & E & E'). back E E'.
Qed.
Lemma r_n3 : rep (n3f_eq feq) (map_n3 val) (map_n3 (@Some G)).
Proof.
  intros [a b e] [c d e']. unfold n3f_eq. cbn [n3_x n3_y n3_z]. rewrite !andb_true_iff, (H0 a c), (H0 b d), (H0 e e'). split.
  - intros; apart. eexists (mkN3 _ _ _). fields.
  - intros ([u v w] & E & E'). back E E'.
Qed.
Lemma r_row : rep (row_eq feq) (map_row val) (map_row (@Some G)).
Proof.
  intros [[a b] e] [[c d] e']. unfold row_eq. rewrite !andb_true_iff, (H0 a c), (H0 b d), (H0 e e'). split.
  - intros; apart. eexists (_, _, _). cbn. split; repeat f_equal; eassumption.
  - intros ([[u v] w] & E & E'). back E E'.
Qed.
Lemma r_m3 : rep (m3f_eq feq) (map_m3 val) (map_m3 (@Some G)).
Proof.
  intros [a b e] [c d e']. unfold m3f_eq. cbn [m3_r0 m3_r1 m3_r2]. rewrite !andb_true_iff, (r_row a c), (r_row b d), (r_row e e'). split.
  - intros; apart. eexists (mkM3 _ _ _). fields.
  - intros ([u v w] & E & E'). cbn [map_m3] in E, E'. injection E; injection E'; intros; repeat split; eexists; split; eassumption.
Qed.
Lemma r_pair : rep (fun u v => feq (fst u) (fst v) && feq (snd u) (snd v)) (fun x => (val (fst x), val (snd x))) (fun x : G * G => (Some (fst x), Some (snd x))).
Proof.
  intros [a b] [c d]. cbn [fst snd]. rewrite andb_true_iff, (H0 a c), (H0 b d). split.
  - intros; apart. eexists (_, _). fields.
  - intros ([u v] & E & E'). back E E'.
Qed.
Lemma r_spectrum : rep (spectrum_eq feq) MS (map_spectrum (@Some G)).
Proof.
  intros [a b e|a b e|l|s|a b] [a' b' e'|a' b' e'|l'|s'|a' b']; unfold MS; cbn [spectrum_eq map_spectrum path_spectrum];
    try (split; [discriminate|]; intros ([?|?|?|?|?] & E & E'); discriminate).
  - rewrite !andb_true_iff, (H0 a a'), (H0 b b'), (H0 e e'). split.
    + intros; apart. eexists (SpRgb _ _ _). fields.
    + intros ([?|?|?|?|?] & E & E'); back E E'.
  - rewrite !andb_true_iff, (H0 a a'), (H0 b b'), (H0 e e'). split.
    + intros; apart. eexists (SpXyz _ _ _). fields.
    + intros ([?|?|?|?|?] & E & E'); back E E'.
  - rewrite (rep_vec _ _ _ r_pair l l'). split.
    + intros; apart. eexists (SpSpectrum _). fields.
    + intros ([?|?|?|?|?] & E & E'); cbn [map_spectrum] in E, E'; try discriminate E. injection E as E. injection E' as E'. eexists. split; eassumption.
  - rewrite path_rep. split.
    + intros (z & E & E'). exists (SpFile z). cbn. now rewrite E, E'.
    + intros ([?|?|?|t|?] & E & E'); try discriminate E. injection E as E. injection E' as E'. now exists t.
  - rewrite !andb_true_iff, (H0 a a'), (H0 b b'). split.
    + intros; apart. eexists (SpBlackbody _ _). fields.
    + intros ([?|?|?|?|?] & E & E'); back E E'.
Qed.
Lemma r_param {A B C} (eq : A -> A -> bool) (m : A -> C) (s : B -> C) : rep eq m s -> rep (param_eq eq) (map_param m) (map_param s).
Proof.
  intros R [a b e] [a' b' e']. unfold param_eq. cbn [par_name par_pos par_values]. rewrite !andb_true_iff, str_rep, pos_rep, (rep_vec _ _ _ R e e'). split.
  - intros [[(n & -> & ->) (p & -> & ->)] (z & E & E')]. exists (mkParam n p z). unfold map_param. cbn. now rewrite E, E'.
  - intros ([n p z] & E & E'). unfold map_param in E, E'. cbn in E, E'. injection E as -> -> E. injection E' as -> -> E'. split; [split|]; eexists; split; try reflexivity; eassumption.
Qed.
Lemma r_params {A} (eq : A -> A -> bool) : (forall x y, eq x y = true <-> x = y) -> rep (vec_eq (param_eq eq)) (fun x => x) (fun x => x).
Proof.
  intros H. apply rep_id. apply vec_eq_iff. intros [a b e] [a' b' e']. unfold param_eq. cbn.
  rewrite !andb_true_iff, str_eqb_iff, pos_eq_iff, (vec_eq_iff _ H). split; [intros [[-> ->] ->]; reflexivity|]. intros E. now injection E.
Qed.
Lemma r_spectra : rep (vec_eq (param_eq (spectrum_eq feq))) (fun l => map (map_param (path_spectrum g)) (map (map_param (map_spectrum val)) l))
  (map (map_param (map_spectrum (@Some G)))).
Proof.
  eapply rep_ext; [reflexivity| |reflexivity|apply rep_vec, r_param, r_spectrum].
  intros l. rewrite map_map. apply map_ext. intros [a b e]. unfold map_param. cbn. now rewrite map_map.
Qed.
Lemma r_ps : rep (param_set_eq feq) MPS (map_ps (@Some G)).
Proof.
  intros [a1 a2 a3 a4 a5 a6 a7 a8 a9 a10 a11] [b1 b2 b3 b4 b5 b6 b7 b8 b9 b10 b11].
  unfold param_set_eq, MPS.
  cbn [ps_bools ps_ints ps_floats ps_point2fs ps_vector2fs ps_point3fs ps_vector3fs ps_normal3fs ps_spectra ps_strings ps_textures map_ps path_ps].
  rewrite !andb_true_iff, (r_params Bool.eqb eqb_true_iff a1 b1), (r_params Z.eqb Z.eqb_eq a2 b2), (rep_vec _ _ _ (r_param _ _ _ H0) a3 b3),
    (rep_vec _ _ _ (r_param _ _ _ r_p2) a4 b4), (rep_vec _ _ _ (r_param _ _ _ r_v2) a5 b5), (rep_vec _ _ _ (r_param _ _ _ r_p3) a6 b6),
    (rep_vec _ _ _ (r_param _ _ _ r_v3) a7 b7), (rep_vec _ _ _ (r_param _ _ _ r_n3) a8 b8), (r_spectra a9 b9),
    (r_params str_eqb str_eqb_iff a10 b10), (r_params str_eqb str_eqb_iff a11 b11). split.
  - intros; apart. eexists (mkPS _ _ _ _ _ _ _ _ _ _ _). cbn [map_ps]. split; f_equal; try eassumption; congruence.
  - intros ([z1 z2 z3 z4 z5 z6 z7 z8 z9 z10 z11] & E & E'). cbn [map_ps] in E, E'.
    injection E as -> -> ? ? ? ? ? ? ? -> ->. injection E' as -> -> ? ? ? ? ? ? ? -> ->.
    repeat split; eexists; split; first [reflexivity | eassumption].
Qed.
Lemma r_ds : rep (directive_struct_eq feq) MDS (map_ds (@Some G)).
Proof.
  intros [a b e] [a' b' e']. unfold directive_struct_eq, MDS, path_ds, map_ds. cbn [ds_ty ds_pos ds_params].
  rewrite !andb_true_iff, str_rep, pos_rep, (r_ps e e'). unfold MPS. split.
  - intros [[(n & -> & ->) (p & -> & ->)] (z & E & E')]. exists (mkDS n p z). cbn [ds_ty ds_pos ds_params]. now rewrite E, E'.
  - intros ([n p z] & E & E'). cbn [ds_ty ds_pos ds_params] in E, E'. injection E as -> -> E. injection E' as -> -> E'.
    split; [split|]; eexists; split; try reflexivity; eassumption.
Qed.
Lemma r_ts : rep (texture_struct_eq feq) MTS (map_ts (@Some G)).
Proof.
  intros [a b c d e] [a' b' c' d' e']. unfold texture_struct_eq, MTS, path_ts, map_ts. cbn [ts_name ts_ty ts_class ts_pos ts_params].
  rewrite !andb_true_iff, !str_rep, pos_rep, (r_ps e e'). unfold MPS. split.
  - intros [[[[(n & -> & ->) (t & -> & ->)] (k & -> & ->)] (p & -> & ->)] (z & E & E')]. exists (mkTS n t k p z). cbn [ts_name ts_ty ts_class ts_pos ts_params]. now rewrite E, E'.
  - intros ([n t k p z] & E & E'). cbn [ts_name ts_ty ts_class ts_pos ts_params] in E, E'. injection E as -> -> -> -> E. injection E' as -> -> -> -> E'.
    repeat split; eexists; split; try reflexivity; eassumption.
Qed.

(** Induction over directives and their children. *)
Fixpoint dir_rect' (P : Directive F -> Prop) (Hd : forall d, (match d with DAttribute _ l | DTransform _ l | DWorld _ l => Forall P l | _ => True end) -> P d)
  (d : Directive F) : P d :=
  let fix all (l : list (Directive F)) : Forall P l :=
    match l with [] => Forall_nil _ | x :: l' => Forall_cons x (dir_rect' P Hd x) (all l') end in
  Hd d match d with
       | DAttribute _ l | DTransform _ l | DWorld _ l => all l
       | _ => I
       end.

(** [injection] without looking into the argument. *)
Ltac inj E := match type of E with ?K ?a = ?K ?b =>
  let J := fresh in assert (J : forall x y, K x = K y -> x = y) by (let H := fresh in intros ? ? H; now injection H); apply J in E; clear J end.
Lemma r_dir : rep (directive_eq feq) MD (map_dir (@Some G)).
Proof.
  assert (B : forall (K : Pos -> list (Directive (option G)) -> Directive (option G)) (K' : Pos -> list (Directive G) -> Directive G)
      (S : forall p l, map_dir (@Some G) (K' p l) = K p (map (map_dir (@Some G)) l))
      (J : forall p l d, K p l = map_dir (@Some G) d -> exists q m, d = K' q m)
      (I : forall p l q m, K p l = K q m -> p = q /\ l = m) p l q l',
      Forall (rep_at (directive_eq feq) MD (map_dir (@Some G))) l ->
      (pos_eq p q && vec_eq (directive_eq feq) l l' = true <->
       exists z, K p (map (path_dir g) (map (map_dir val) l)) = map_dir (@Some G) z /\ K q (map (path_dir g) (map (map_dir val) l')) = map_dir (@Some G) z)).
  { intros K K' S J I p l q l' HF. rewrite !map_map. rewrite andb_true_iff, pos_rep, (rep_vec_at _ _ _ _ HF l'). split.
    - intros [(r & -> & ->) (z & E & E')]. exists (K' r z). rewrite S. unfold MD in E, E'. now rewrite E, E'.
    - intros (z & E & E'). destruct (J _ _ _ E) as (r & m & ->). rewrite S in E, E'. apply I in E, E'. destruct E as [-> E], E' as [-> E'].
      split; eexists; split; first [reflexivity | eassumption]. }
  intros d. induction d as [d IH] using dir_rect'. intros d'.
  destruct d as [a|a|a|a|p l|p l|p l|p s|a], d' as [b|b|b|b|q l'|q l'|q l'|q t|b]; cbn [directive_eq]; unfold MD; cbn [path_dir map_dir];
    try (split; [discriminate|]; intros ([?|?|?|?|? ?|? ?|? ?|? ?|?] & E & E'); cbn [map_dir] in E, E'; first [discriminate E | discriminate E']).
  - rewrite (r_ds a b). split.
    + intros (z & E & E'). exists (DMaterial z). cbn [map_dir]. split; f_equal; assumption.
    + intros ([z|?|?|?|? ?|? ?|? ?|? ?|?] & E & E'); cbn [map_dir] in E, E'; try discriminate E. inj E. inj E'. exists z. split; assumption.
  - rewrite (r_ds a b). split.
    + intros (z & E & E'). exists (DShape z). cbn [map_dir]. split; f_equal; assumption.
    + intros ([?|z|?|?|? ?|? ?|? ?|? ?|?] & E & E'); cbn [map_dir] in E, E'; try discriminate E. inj E. inj E'. exists z. split; assumption.
  - rewrite (r_ds a b). split.
    + intros (z & E & E'). exists (DLightSource z). cbn [map_dir]. split; f_equal; assumption.
    + intros ([?|?|z|?|? ?|? ?|? ?|? ?|?] & E & E'); cbn [map_dir] in E, E'; try discriminate E. inj E. inj E'. exists z. split; assumption.
  - rewrite (r_ds a b). split.
    + intros (z & E & E'). exists (DAreaLightSource z). cbn [map_dir]. split; f_equal; assumption.
    + intros ([?|?|?|z|? ?|? ?|? ?|? ?|?] & E & E'); cbn [map_dir] in E, E'; try discriminate E. inj E. inj E'. exists z. split; assumption.
  - apply (B (fun p l => DAttribute p l) (fun p l => DAttribute p l)); [reflexivity| |intros ? ? ? ? E; now injection E|exact IH].
    intros p0 l0 [?|?|?|?|? ?|? ?|? ?|? ?|?] E; try discriminate E. eexists; eexists; reflexivity.
  - apply (B (fun p l => DTransform p l) (fun p l => DTransform p l)); [reflexivity| |intros ? ? ? ? E; now injection E|exact IH].
    intros p0 l0 [?|?|?|?|? ?|? ?|? ?|? ?|?] E; try discriminate E. eexists; eexists; reflexivity.
  - apply (B (fun p l => DWorld p l) (fun p l => DWorld p l)); [reflexivity| |intros ? ? ? ? E; now injection E|exact IH].
    intros p0 l0 [?|?|?|?|? ?|? ?|? ?|? ?|?] E; try discriminate E. eexists; eexists; reflexivity.
  - rewrite andb_true_iff, pos_rep, path_rep. split.
    + intros [(r & -> & ->) (z & E & E')]. exists (DInclude r z). cbn [map_dir]. now rewrite E, E'.
    + intros ([?|?|?|?|? ?|? ?|? ?|r z|?] & E & E'); try discriminate E. injection E as -> E. injection E' as -> E'. split; eexists; split; first [eassumption | reflexivity].
  - rewrite (r_ts a b). split.
    + intros (z & E & E'). exists (DTexture z). cbn [map_dir]. split; f_equal; assumption.
    + intros ([?|?|?|?|? ?|? ?|? ?|? ?|z] & E & E'); cbn [map_dir] in E, E'; try discriminate E. inj E. inj E'. exists z. split; assumption.
Qed.
Lemma r_pre : rep (predirective_eq feq) MP (map_pre (@Some G)).
Proof.
  intros d d'.
  destruct d, d'; cbn [predirective_eq]; unfold MP; cbn [path_pre map_pre];
    try (split; [discriminate|]; intros (z & E & E'); destruct z; cbn [map_pre] in E, E'; first [discriminate E | discriminate E']);
    rewrite ?andb_true_iff, ?pos_rep, ?str_rep, ?path_rep,
      ?(r_v3 _ _), ?(r_m3 _ _), ?(H0 _ _), ?(r_ds _ _); unfold MDS;
    (split; [ intros; apart | intros (z & E & E'); destruct z; cbn [map_pre] in E, E'; try discriminate E; first [inj E; inj E' | injection E; injection E'; intros; subst];
              repeat split; eexists; split; first [eassumption | reflexivity | congruence] ]).
  all: subst.
  - eexists (PIdentity _). cbn; split; reflexivity.
  - eexists (PTranslate _ _). cbn [map_pre]. split; f_equal; eassumption.
  - eexists (PScale _ _). cbn [map_pre]. split; f_equal; eassumption.
  - eexists (PRotate _ _ _). cbn [map_pre]. split; f_equal; eassumption.
  - eexists (PLookAt _ _). cbn [map_pre]. split; f_equal; eassumption.
  - eexists (PCoordinateSystem _ _). cbn; split; reflexivity.
  - eexists (PCoordSysTransform _ _). cbn; split; reflexivity.
  - eexists (PTransform _ _). cbn [map_pre]. split; f_equal; eassumption.
  - eexists (PConcatTransform _ _). cbn [map_pre]. split; f_equal; eassumption.
  - eexists (PActiveTransform _ _). cbn; split; reflexivity.
  - eexists (PTransformTimes _ _ _). cbn [map_pre]. split; f_equal; eassumption.
  - eexists (PCamera _). cbn [map_pre]. split; f_equal; eassumption.
  - eexists (PSampler _). cbn [map_pre]. split; f_equal; eassumption.
  - eexists (PFilm _). cbn [map_pre]. split; f_equal; eassumption.
  - eexists (PFilter _). cbn [map_pre]. split; f_equal; eassumption.
  - eexists (PIntegrator _). cbn [map_pre]. split; f_equal; eassumption.
  - eexists (PAccelerator _). cbn [map_pre]. split; f_equal; eassumption.
  - eexists (PInclude _ _). cbn [map_pre]. split; f_equal; congruence.
Qed.
Lemma r_scene x y : scene_eq feq x y = true <->
  exists z, path_scene g (map_scene val x) = map_scene (@Some G) z /\ path_scene g (map_scene val y) = map_scene (@Some G) z.
Proof.
  destruct x as [ps d], y as [ps' d']. unfold scene_eq, path_scene, map_scene. cbn [fst snd]. rewrite !map_map.
  rewrite andb_true_iff, (rep_vec _ _ _ r_pre ps ps'), (r_dir d d'). unfold MP, MD. split.
  - intros [(z & E & E') (w & K & K')]. exists (z, w). cbn [fst snd]. split; f_equal; assumption.
  - intros ([z w] & E & E'). cbn [fst snd] in E, E'. injection E as E K. injection E' as E' K'. split; eexists; split; eassumption.
Qed.
End SceneEq.
