(** Proofs for C135: padding of lines, and the entries of the inverse. *)
From Coq Require Import ZArith Reals Lia Lra.
From Flocq Require Import Core.Core IEEE754.BinarySingleNaN.
From Verif Require Import Base Elem FloatInst MatModel MainModel MainSpec FloatErrSpec.
Import SpecFloat.

(** Padding line by line. *)
Lemma pad_tail s t : one_line s -> pad false (s ++ t) = s ++ pad false t.
Proof.
  unfold one_line. induction s as [|c s IH]; cbn [app]; [reflexivity|]. intros H. cbn [pad app].
  destruct (N.eqb_spec c c_lf) as [->|_]; [exfalso; apply H; now left|]. f_equal. apply IH. intros Q. apply H. now right.
Qed.
Lemma pad_line s t : one_line s -> s <> [] -> pad true (s ++ c_lf :: t) = s2l "    " ++ s ++ c_lf :: pad true t.
Proof.
  destruct s as [|c s]; [now intros _ Q|]. intros H _. cbn [app]. cbn [pad].
  destruct (N.eqb_spec c c_lf) as [->|_]; [exfalso; apply H; now left|]. rewrite pad_tail by (intros Q; apply H; now right). reflexivity.
Qed.
Lemma pad_lines ls : (forall l, In l ls -> one_line l /\ l <> []) -> pad true (unlines ls) = unlines (map (fun l => s2l "    " ++ l) ls).
Proof.
  induction ls as [|l ls IH]; intros H; [reflexivity|]. cbn [unlines flat_map map]. fold (unlines ls).
  destruct (H l (or_introl eq_refl)) as [H1 H2]. rewrite <- app_assoc. cbn [app]. rewrite pad_line by assumption.
  rewrite IH by (intros; apply H; now right). unfold unlines. cbn [flat_map]. rewrite <- !app_assoc. reflexivity.
Qed.
Lemma unlines_app a b : unlines (a ++ b) = unlines a ++ unlines b.
Proof. unfold unlines. apply flat_map_app. Qed.
Definition fine (ls : list str) : Prop := forall l, In l ls -> one_line l /\ l <> [].
Definition in4 (l : str) : str := s2l "    " ++ l.
Lemma s_line s : forallb (fun c => negb (c =? c_lf)%N) s = true -> one_line s.
Proof. intros H Q. rewrite forallb_forall in H. specialize (H _ Q). rewrite N.eqb_refl in H. discriminate. Qed.
Lemma line_app s t : one_line s -> one_line t -> one_line (s ++ t).
Proof. intros H1 H2 Q. apply in_app_or in Q as [Q|Q]; auto. Qed.
Lemma fine_in4 ls : fine ls -> fine (map in4 ls).
Proof.
  intros H l Q. apply in_map_iff in Q as (k & <- & Q). split; [|unfold in4; cbn; discriminate]. apply line_app; [apply s_line; reflexivity|now apply H].
Qed.
Lemma fine_app a b : fine a -> fine b -> fine (a ++ b).
Proof. intros H1 H2 l Q. apply in_app_or in Q as [Q|Q]; auto. Qed.
Lemma entry_lines e ls : e ++ s2l "," ++ [c_lf] = unlines ls -> fine ls -> dbg_entry e = unlines (map in4 ls).
Proof. intros H G. unfold dbg_entry. rewrite H. now apply pad_lines. Qed.
(** Entries that are each some lines give a list of these lines, indented, between brackets. *)
Lemma entries_lines (es : list str) (ls : list (list str)) : Forall2 (fun e l => e ++ s2l "," ++ [c_lf] = unlines l /\ fine l) es ls ->
  flat_map dbg_entry es = unlines (map in4 (concat ls)).
Proof.
  induction 1 as [|e l es ls [H G] _ IH]; [reflexivity|]. cbn [flat_map concat]. rewrite map_app, unlines_app, IH, (entry_lines e l); auto.
Qed.
Lemma list_lines es ls : es <> [] -> Forall2 (fun e l => e ++ s2l "," ++ [c_lf] = unlines l /\ fine l) es ls ->
  dbg_list es ++ s2l "," ++ [c_lf] = unlines ([s2l "["] ++ map in4 (concat ls) ++ [s2l "],"]) /\ fine ([s2l "["] ++ map in4 (concat ls) ++ [s2l "],"]).
Proof.
  intros N H. split.
  - unfold dbg_list. destruct es as [|e es]; [congruence|]. rewrite (entries_lines _ _ H), !unlines_app. cbn. rewrite <- !app_assoc. reflexivity.
  - apply fine_app; [|apply fine_app].
    + intros l [<-|[]]. split; [apply s_line; reflexivity|discriminate].
    + apply fine_in4. clear N. induction H as [|e l es ls [_ G] _ IH]; [intros l []|]. now apply fine_app.
    + intros l [<-|[]]. split; [apply s_line; reflexivity|discriminate].
Qed.
Section Show.
Context {F : Type} (show : F -> str) (SL : forall x, one_line (show x)).
Lemma item_lines x : show x ++ s2l "," ++ [c_lf] = unlines [show x ++ s2l ","] /\ fine [show x ++ s2l ","].
Proof.
  split; [unfold unlines; cbn; now rewrite app_nil_r, <- app_assoc|]. intros l [<-|[]]. split; [apply line_app; [apply SL|apply s_line; reflexivity]|].
  intros Q. apply app_eq_nil in Q as [_ Q]. discriminate.
Qed.
Lemma row_text (r : vec4 F) : dbg_list (map show (w_list r)) ++ s2l "," ++ [c_lf] = unlines (map (fun l => l) (
    [s2l "["] ++ map in4 [show (w0 r) ++ s2l ","; show (w1 r) ++ s2l ","; show (w2 r) ++ s2l ","; show (w3 r) ++ s2l ","] ++ [s2l "],"])) /\
  fine ([s2l "["] ++ map in4 [show (w0 r) ++ s2l ","; show (w1 r) ++ s2l ","; show (w2 r) ++ s2l ","; show (w3 r) ++ s2l ","] ++ [s2l "],"]).
Proof.
  rewrite map_id. apply (list_lines (map show (w_list r)) [[show (w0 r) ++ s2l ","]; [show (w1 r) ++ s2l ","]; [show (w2 r) ++ s2l ","]; [show (w3 r) ++ s2l ","]]); [discriminate|].
  repeat (constructor; [apply item_lines|]). constructor.
Qed.
Lemma debug_lines (m : Matrix4 F) : dbg_m4 show m ++ [c_lf] = unlines (printed show m).
Proof.
  unfold dbg_m4, dbg_struct. cbn [flat_map fst snd app].
  pose (rl := fun r : vec4 F => [s2l "["] ++ map in4 [show (w0 r) ++ s2l ","; show (w1 r) ++ s2l ","; show (w2 r) ++ s2l ","; show (w3 r) ++ s2l ","] ++ [s2l "],"]).
  destruct (list_lines (map (fun row => dbg_list (map show (w_list row))) (w_list m)) [rl (w0 m); rl (w1 m); rl (w2 m); rl (w3 m)]) as [T G].
  { discriminate. }
  { repeat (constructor; [match goal with |- context [w_list ?r] => pose proof (row_text r) as Q; rewrite map_id in Q; exact Q end|]). constructor. }
  set (body := dbg_list (map (fun row => dbg_list (map show (w_list row))) (w_list m))) in *. clearbody body.
  cbn [concat] in T, G. rewrite app_nil_r in T, G. set (mid := rl (w0 m) ++ rl (w1 m) ++ rl (w2 m) ++ rl (w3 m)) in *.
  assert (E : (s2l "mat" ++ s2l ": " ++ body) ++ s2l "," ++ [c_lf] = unlines ([s2l "mat: ["] ++ map in4 mid ++ [s2l "],"])).
  { rewrite <- !app_assoc. rewrite T. rewrite !unlines_app. unfold unlines at 1 4. cbn. reflexivity. }
  assert (G' : fine ([s2l "mat: ["] ++ map in4 mid ++ [s2l "],"])).
  { apply fine_app; [|now intros l Q; apply G; right]. intros l [<-|[]]. split; [apply s_line; reflexivity|discriminate]. }
  assert (P : printed show m = [s2l "Matrix4 {"] ++ map in4 ([s2l "mat: ["] ++ map in4 mid ++ [s2l "],"]) ++ [s2l "}"]) by (vm_compute; reflexivity).
  rewrite (entry_lines _ _ E G'), P. set (x := map in4 ([s2l "mat: ["] ++ map in4 mid ++ [s2l "],"])). clearbody x. rewrite !unlines_app.
  assert (H1 : unlines [s2l "Matrix4 {"] = s2l "Matrix4" ++ s2l " {" ++ [c_lf]) by (vm_compute; reflexivity).
  assert (H2 : unlines [s2l "}"] = s2l "}" ++ [c_lf]) by (vm_compute; reflexivity).
  rewrite H1, H2, app_nil_r. change (c_lf :: unlines x ++ s2l "}") with ([c_lf] ++ unlines x ++ s2l "}"). rewrite <- !app_assoc. reflexivity.
Qed.
Lemma app_line_inj s t a b : one_line s -> one_line t -> s ++ c_lf :: a = t ++ c_lf :: b -> s = t /\ a = b.
Proof.
  revert t. induction s as [|x s IH]; intros [|y t] H1 H2 E; cbn [app] in E; [injection E as E2|injection E as E1 E2..].
  - auto.
  - exfalso. subst y. apply H2. now left.
  - exfalso. subst x. apply H1. now left.
  - subst y. destruct (IH t) as [-> ->]; auto; intros Q; [apply H1|apply H2]; now right.
Qed.
Lemma unlines_inj a b : (forall l, In l a -> one_line l) -> (forall l, In l b -> one_line l) -> unlines a = unlines b -> a = b.
Proof.
  revert b. induction a as [|x a IH]; intros [|y b] H1 H2 E; auto.
  - exfalso. cbn in E. destruct y; discriminate.
  - exfalso. cbn in E. destruct x; discriminate.
  - unfold unlines in E. cbn [flat_map] in E. rewrite <- !app_assoc in E. cbn [app] in E.
    apply app_line_inj in E as [-> E]; [|apply H1; now left|apply H2; now left]. f_equal. apply IH; auto; intros l Q; [apply H1|apply H2]; now right.
Qed.
Lemma printed_lines (m : Matrix4 F) l : In l (printed show m) -> one_line l.
Proof.
  assert (Q : forall x, one_line (s2l "            " ++ show x ++ s2l ",")).
  { intros x. apply line_app; [apply s_line; reflexivity|]. apply line_app; [apply SL|apply s_line; reflexivity]. }
  unfold printed, row_lines. intros H. repeat (apply in_app_or in H as [H|H]);
    repeat (destruct H as [<-|H]; [first [apply Q|apply s_line; reflexivity]|]); destruct H.
Qed.
Lemma read_back (m n : Matrix4 F) : dbg_m4 show m = dbg_m4 show n -> forall r c, show (mget m r c) = show (mget n r c).
Proof.
  intros E. assert (E' : unlines (printed show m) = unlines (printed show n)) by now rewrite <- !debug_lines, E.
  apply unlines_inj in E'; [|intros l; apply printed_lines..].
  pose (ix_n := fun i => match i with I0 => 0 | I1 => 1 | I2 => 2 | I3 => 3 end).
  assert (K : forall (k : Matrix4 F) r c, nth (3 + 6 * ix_n r + ix_n c) (printed show k) [] = s2l "            " ++ show (mget k r c) ++ s2l ",").
  { intros k [] []; reflexivity. }
  intros r c. pose proof (K m r c) as Q. rewrite E', (K n r c) in Q. apply app_inv_head in Q. now apply app_inv_tail in Q.
Qed.
End Show.

(** The entries of the inverse, as fractions with denominator 39. *)
Local Open Scope R_scope.
Definition sf_ok (p k : Z) (s : spec_float) (n : Z) : bool :=
  match s with
  | S754_finite sg m e => (e <=? 0)%Z && (Z.abs (39 * cond_Zopp sg (Zpos m) - n * 2 ^ (- e)) * 2 ^ p <=? k * 2 ^ (- e))%Z
  | _ => false
  end.
Lemma sf_ok_R p k s n : (0 <= p)%Z -> sf_ok p k s n = true -> Rabs (39 * SF2R radix2 s - IZR n) <= IZR k * bpow radix2 (- p).
Proof.
  intros Hp H. destruct s as [| | |sg m e]; try discriminate. cbn in H. apply andb_prop in H as [He H]. apply Z.leb_le in He, H.
  cbn [SF2R]. unfold F2R; cbn [Fnum Fexp]. set (z := cond_Zopp sg (Zpos m)) in *. set (q := (- e)%Z) in *. replace e with (- q)%Z by (unfold q; lia). assert (Hq : (0 <= q)%Z) by lia.
  assert (Pq : 0 < bpow radix2 q) by apply bpow_gt_0. assert (Pp : 0 < bpow radix2 p) by apply bpow_gt_0.
  rewrite !bpow_opp. apply IZR_le in H. rewrite !mult_IZR, abs_IZR, minus_IZR, !mult_IZR in H. rewrite !(IZR_Zpower radix2) in H by assumption.
  set (a := bpow radix2 q) in *. set (b := bpow radix2 p) in *.
  replace (39 * (IZR z * / a) - IZR n) with ((39 * IZR z - IZR n * a) / a) by (field; lra).
  unfold Rdiv. rewrite Rabs_mult, (Rabs_pos_eq (/ a)) by (left; now apply Rinv_0_lt_compat).
  apply (Rmult_le_reg_r (a * b)); [nra|]. replace (Rabs (39 * IZR z - IZR n * a) * / a * (a * b)) with (Rabs (39 * IZR z - IZR n * a) * b) by (field; lra).
  replace (IZR k * / b * (a * b)) with (IZR k * a) by (field; lra). exact H.
Qed.
Definition all_ix : list ix := [I0; I1; I2; I3].
Definition entries_ok f k (b : Matrix4 (flt f)) : bool :=
  forallb (fun r => forallb (fun c => sf_ok (fprec f) k (B2SF (mget b r c)) (mget inv39 r c)) all_ix) all_ix.
Lemma entries_R f k (b : Matrix4 (flt f)) : entries_ok f k b = true ->
  forall r c, Rabs (39 * B2R (mget b r c) - IZR (mget inv39 r c)) <= IZR k * half_ulp f.
Proof.
  intros H r c. unfold entries_ok in H. rewrite forallb_forall in H. specialize (H r ltac:(destruct r; cbn; auto)). cbn beta in H.
  rewrite forallb_forall in H. specialize (H c ltac:(destruct c; cbn; auto)). cbn beta in H. rewrite <- SF2R_B2SF. apply sf_ok_R; [destruct f; cbn; lia|exact H].
Qed.
Lemma main_text f (show : flt f -> str) : (forall x, one_line (show x)) -> exists b, main_out (f_elem f) (f_of_int f) show = Done (unlines (printed show b)) /\
  forall r c, Rabs (39 * B2R (mget b r c) - IZR (mget inv39 r c)) <= match f with F32 => 900 | F64 => 13000 end * half_ulp f.
Proof.
  intros SL. unfold main_out. set (o := m4_inverse_of _ _ _).
  assert (H : match o with Done b => entries_ok f (match f with F32 => 900 | F64 => 13000 end)%Z b | _ => false end = true) by (subst o; destruct f; vm_compute; reflexivity).
  destruct o as [b| |]; try discriminate. exists b. split; [apply (f_equal (@Done str)), debug_lines, SL|]. intros r c. pose proof (entries_R f _ b H r c) as Q. destruct f; exact Q.
Qed.
Lemma inv39_right : forall r c,
  (mget main_mat r I0 * mget inv39 I0 c + mget main_mat r I1 * mget inv39 I1 c + mget main_mat r I2 * mget inv39 I2 c + mget main_mat r I3 * mget inv39 I3 c)%Z =
  match r, c with I0, I0 | I1, I1 | I2, I2 | I3, I3 => 39%Z | _, _ => 0%Z end.
Proof. intros [] []; reflexivity. Qed.
