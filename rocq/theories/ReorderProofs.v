(** The order of parameters of different kinds does not matter. *)
From Verif Require Import Base TokModel ParModel SceneSpec SceneObs TokProofs ParProofs DirProofs SceneThms SceneProps KindProofs ReorderSpec.

Section Reorder.
Context {F : Type} (fo : FloatOps F).
Notation toks := (list (Token F)).
Notation R := (rearranged fo).

Lemma reorder_sym (l l' : list (pitem (F := F))) : reorder l l' -> reorder l' l.
Proof.
  induction 1; [constructor|now apply ro_swap; apply not_eq_sym|now constructor|eapply ro_trans; eauto].
Qed.
Lemma R_sym s s' : R s s' -> R s' s.
Proof. induction 1; [constructor|now constructor|eapply rg_params; eauto using reorder_sym]. Qed.
Lemma R_refl s : R s s.
Proof. induction s; now constructor. Qed.

Lemma pick_reorder {T} (sel : pval -> option (list T)) (k : pkind) :
  (forall v, kind_of v <> k -> sel v = None) -> forall l l' : list (pitem (F := F)), reorder l l' -> pick sel l = pick sel l'.
Proof.
  intros Hs l l' H. induction H as [l|i j l H|i l l' H IH|l1 l2 l3 H1 IH1 H2 IH2].
  - reflexivity.
  - unfold pick. cbn. assert (X : sel (pi_val i) = None \/ sel (pi_val j) = None).
    { assert (D : {kind_of (pi_val i) = k} + {kind_of (pi_val i) <> k}) by decide equality.
      destruct D as [D|D]; [right|left]; apply Hs; [congruence|assumption]. }
    destruct X as [-> | ->]; [reflexivity|]. now destruct (sel (pi_val i)).
  - unfold pick in *. cbn. now rewrite IH.
  - congruence.
Qed.
Lemma collect_reorder (l l' : list (pitem (F := F))) : reorder l l' -> collect l = collect l'.
Proof.
  intros H. unfold collect.
  f_equal; [apply (pick_reorder _ KBools)|apply (pick_reorder _ KInts)|apply (pick_reorder _ KFloats)|apply (pick_reorder _ KPoints)|
    apply (pick_reorder _ KVectors)|apply (pick_reorder _ KSpectrum)|apply (pick_reorder _ KStrings)|apply (pick_reorder _ KTexture)];
    try assumption; intros v Hv; destruct v; try reflexivity; exfalso; apply Hv; reflexivity.
Qed.
Lemma reorder_app (l l' l0 : list (pitem (F := F))) : reorder l l' -> reorder (l ++ l0) (l' ++ l0).
Proof. induction 1; cbn; [constructor|now constructor|now constructor|eapply ro_trans; eauto]. Qed.

(** The first token stays. *)
Lemma R_quiet s s' : R s s' -> quiet s -> quiet s'.
Proof. intros [|[p k] u u' H|p id n h c c' l l' u u' Hn Hl Ha H1 H2 Ho H]; auto. Qed.
Lemma R_not_number s s' : R s s' -> not_number s -> not_number s'.
Proof. intros [|[p k] u u' H|p id n h c c' l l' u u' Hn Hl Ha H1 H2 Ho H]; auto. Qed.
Lemma R_plain c r s' : Forall plain c -> R (c ++ r) s' -> exists r', s' = c ++ r' /\ R r r'.
Proof.
  intros P. revert s'. induction P as [|t c Ht P IH]; intros s' H; [now exists s'|].
  cbn in H. inversion H as [|? u u' H'|p id n h c0 c' l l' u u' Hn Hl Ha H1 H2 Ho H' E]; subst.
  - destruct (IH _ H') as (r' & -> & Hr). exists r'. auto.
  - discriminate.
Qed.
Lemma R_str p w s s' : R (mkTok p (TStr w) :: s) s' -> exists s2, s' = mkTok p (TStr w) :: s2 /\ R s s2.
Proof. intros H. inversion H; subst; eauto. Qed.
(** A keyword without parameters is followed by rearranged tokens. *)
Lemma R_other p id s s' : (forall n, ~ In (id, n) takes_params) -> R (mkTok p (TIdent id) :: s) s' ->
  exists s2, s' = mkTok p (TIdent id) :: s2 /\ R s s2.
Proof.
  intros Hn H. inversion H as [|? u u' H'|p0 id0 n h c0 c' l l' u u' Hi Hl Ha H1 H2 Ho H' E]; subst; eauto.
  exfalso. eapply Hn; eauto.
Qed.
Lemma params_R s l r : params fo s l r -> forall s', R s s' -> exists r', R r r' /\ params fo s' l r'.
Proof.
  intros H s' Hs. pose proof (params_quiet fo _ _ _ H) as Hq. destruct (cf_params fo _ _ _ H) as (c & -> & P & _ & G).
  destruct (R_plain _ _ _ P Hs) as (r' & -> & Hr). exists r'. split; [assumption|]. apply G. eauto using R_quiet.
Qed.
Lemma strings_eq (h h' : toks) x x' : h ++ x = h' ++ x' -> length h = length h' -> h = h' /\ x = x'.
Proof.
  revert h'. induction h as [|t h IH]; intros [|t' h'] E L; try discriminate; [auto|].
  cbn in E, L. injection E as -> E. injection L as L. destruct (IH _ E L) as [-> ->]. auto.
Qed.
(** The parameters after the strings [h] of keyword [id]. *)
Lemma head_R p id n (h : toks) s l r s' : In (id, n) takes_params -> length h = n -> Forall plain h -> params fo s l r ->
  R (mkTok p (TIdent id) :: h ++ s) s' ->
  exists s2 l2 r2, s' = mkTok p (TIdent id) :: h ++ s2 /\ R r r2 /\ params fo s2 l2 r2 /\ collect l2 = collect l.
Proof.
  intros Hi Hl Hh Hp H. inversion H as [|? u u' H'|p0 id0 n0 h0 c c' l1 l1' u u' Hi' Hl' Ha H1 H2 Ho H' E]; subst.
  - destruct (R_plain _ _ _ Hh H') as (s2 & -> & Hs). destruct (params_R _ _ _ Hp _ Hs) as (r2 & Hr & Hp2).
    exists s2, l, r2. auto.
  - assert (EL : length h0 = length h).
    { clear -Hi Hi'. revert Hi Hi'. generalize (length h) (length h0). intros n m.
      unfold takes_params. cbn [In map]. intros A B.
      repeat (destruct A as [A|A]; [injection A as <- <-; repeat (destruct B as [B|B]; [first [discriminate B|injection B as <-; reflexivity]|]); destruct B|]). destruct A. }
    match goal with X : h0 ++ _ = h ++ _ |- _ => destruct (strings_eq _ _ _ _ X EL) as [-> <-] end.
    destruct (params_skip fo _ _ _ (H1 u) _ _ Hp) as (l2 & -> & Hp2).
    destruct (params_R _ _ _ Hp2 _ H') as (r2 & Hr & Hp3).
    exists (c' ++ u'), (l1' ++ l2), r2. split; [reflexivity|]. split; [assumption|].
    split; [eapply params_app; [apply H2|assumption]|]. symmetry. apply collect_reorder. now apply reorder_app.
Qed.

Lemma struct_takes id mkD : struct_kw (F := F) id mkD -> In (id, 1) takes_params.
Proof. intros []; cbn; auto 20. Qed.
Lemma pstruct_takes id mkD : pstruct_kw (F := F) id mkD -> In (id, 1) takes_params.
Proof. intros []; cbn; auto 20. Qed.
Ltac notin := let n := fresh in let H := fresh in intros n H; unfold takes_params in H; cbn [In map] in H;
  repeat (destruct H as [H|H]; [discriminate H|]); destruct H.
Lemma block_takes id mkB : block_kw (F := F) id mkB -> forall n, ~ In (id, n) takes_params.
Proof. intros []; notin. Qed.
Lemma closer_takes id : In id closers -> forall n, ~ In (id, n) takes_params.
Proof. intros H. unfold closers in H. cbn [In map] in H. repeat (destruct H as [<-|H]; [notin|]). destruct H. Qed.
Lemma numbers_takes id p fl d : numbers_kw (F := F) id p fl d -> forall n, ~ In (id, n) takes_params.
Proof. intros []; notin. Qed.
Lemma pstr_takes id mkP : pstr_kw (F := F) id mkP -> forall n, ~ In (id, n) takes_params.
Proof. intros []; notin. Qed.

Lemma R_both :
  (forall s d r, directive fo s d r -> forall s2, R s s2 -> exists r2, R r r2 /\ directive fo s2 d r2) /\
  (forall s ds r, directives fo s ds r -> forall s2, R s s2 -> exists r2, R r r2 /\ directives fo s2 ds r2).
Proof.
  apply (dir_both F fo
    (fun s d r => forall s2, R s s2 -> exists r2, R r r2 /\ directive fo s2 d r2)
    (fun s ds r => forall s2, R s s2 -> exists r2, R r r2 /\ directives fo s2 ds r2)).
  - intros p id mkD q ty s0 l r0 Hk Hp s2 H.
    destruct (head_R p id 1 [mkTok q (TStr ty)] s0 l r0 s2 (struct_takes _ _ Hk) eq_refl ltac:(repeat constructor) Hp H)
      as (s3 & l2 & r2 & -> & Hr & Hp2 & <-). exists r2. split; [assumption|]. cbn [app]. now constructor.
  - intros p id mkB s0 ds r0 Hk _ IH s2 H. apply (R_other _ _ _ _ (block_takes _ _ Hk)) in H as (s3 & -> & H).
    destruct (IH _ H) as (r2 & Hr & G). exists r2. split; [assumption|]. now constructor.
  - intros p q path r0 s2 H. apply R_other in H as (s3 & -> & H); [|notin]. apply R_str in H as (s4 & -> & H).
    exists s4. split; [assumption|constructor].
  - intros p q1 name q2 ty q3 class s0 l r0 Hp s2 H.
    destruct (head_R p (s2l "Texture") 3 [mkTok q1 (TStr name); mkTok q2 (TStr ty); mkTok q3 (TStr class)] s0 l r0 s2
      ltac:(left; reflexivity) eq_refl ltac:(repeat constructor) Hp H)
      as (s3 & l2 & r2 & -> & Hr & Hp2 & <-). exists r2. split; [assumption|]. cbn [app]. now constructor.
  - intros p id s0 Hc s2 H. pose proof H as H0. apply (R_other _ _ _ _ (closer_takes _ Hc)) in H as (s3 & -> & H).
    eexists. split; [exact H0|]. now constructor.
  - intros s0 d s' ds r _ IH1 _ IH2 s2 H. destruct (IH1 _ H) as (r2 & Hr & G2). destruct (IH2 _ Hr) as (r3 & Hr3 & G3).
    exists r3. split; [assumption|]. econstructor; eauto.
Qed.

(** After [ActiveTransform Shape] comes a string and nothing goes on. *)
Definition stuck (s : toks) : Prop := match s with t :: _ => a_string t | [] => False end.
Lemma R_predirective s d r : predirective fo s d r -> forall s2, R s s2 ->
  exists r2, (R r r2 \/ stuck r) /\ predirective fo s2 d r2.
Proof.
  intros [p r0|p id fl d0 s0 r0 Hk Hi Hr|p id mkP q w r0 Hk|p q w r0|p id mkP q ty s0 l r0 Hk Hp] s2 H.
  - apply R_other in H as (s3 & -> & H); [|notin]. exists s3. split; [auto|constructor].
  - apply (R_other _ _ _ _ (numbers_takes _ _ _ _ Hk)) in H as (s3 & -> & H).
    destruct (cf_items _ (cf_float fo) _ _ _ Hi) as (c & -> & P & G). destruct (R_plain _ _ _ P H) as (r2 & -> & H2).
    exists r2. split; [auto|]. econstructor; eauto using R_not_number.
  - apply (R_other _ _ _ _ (pstr_takes _ _ Hk)) in H as (s3 & -> & H). apply R_str in H as (s4 & -> & H).
    exists s4. split; [auto|]. now constructor.
  - apply R_other in H as (s3 & -> & H); [|notin]. inversion H as [|? u u' H'|p0 id0 n0 h0 c c' l1 l1' u u' Hi' Hl' Ha H1 H2 Ho H' E]; subst.
    + exists u'. split; [auto|constructor].
    + exists (h0 ++ c' ++ u'). split; [right|constructor]. destruct h0 as [|t h0].
      * exfalso. cbn [length] in Hi'. clear -Hi'. unfold takes_params in Hi'. cbn [In map] in Hi'.
        repeat (destruct Hi' as [Hi'|Hi']; [discriminate Hi'|]). destruct Hi'.
      * inversion Ha. assumption.
  - destruct (head_R p id 1 [mkTok q (TStr ty)] s0 l r0 s2 (pstruct_takes _ _ Hk) eq_refl ltac:(repeat constructor) Hp H)
      as (s3 & l2 & r2 & -> & Hr & Hp2 & <-). exists r2. split; [auto|]. cbn [app]. now constructor.
Qed.
Lemma stuck_ident p id (s : toks) : ~ stuck (mkTok p (TIdent id) :: s).
Proof. intros []. Qed.
Lemma stuck_pre s d r : predirective fo s d r -> ~ stuck s.
Proof. intros []; apply stuck_ident. Qed.
Lemma R_predirectives s ds r : predirectives fo s ds r -> forall s2, R s s2 -> exists r2, R r r2 /\ predirectives fo s2 ds r2.
Proof.
  induction 1 as [p s|s d s' ds r Hd H IH]; intros s2 E.
  - pose proof E as E'. apply R_other in E as (s3 & -> & E); [|notin]. eexists. split; [exact E'|constructor].
  - destruct (R_predirective _ _ _ Hd _ E) as (r2 & [E2|Hs] & G2).
    + destruct (IH _ E2) as (r3 & E3 & G3). exists r3. split; [assumption|]. econstructor; eauto.
    + exfalso. destruct H as [|? ? ? ? ? Hd2]; [eapply stuck_ident; eauto|exact (stuck_pre _ _ _ Hd2 Hs)].
Qed.
Lemma R_scene s x s2 : R s s2 -> scene fo s x -> scene fo s2 x.
Proof.
  intros E H. revert E. destruct H as [s0 pres s' w r Hp Hd]. intros E. destruct (R_predirectives _ _ _ Hp _ E) as (s3 & E3 & Gp).
  destruct (proj1 R_both _ _ _ Hd _ E3) as (r2 & E2 & Gw). econstructor; eauto.
Qed.
Lemma R_nil s : R [] s -> s = [].
Proof. intros H. now inversion H. Qed.
Lemma R_dir_eof s : dir_eof fo s -> forall s2, R s s2 -> dir_eof fo s2.
Proof.
  apply (dir_eof_mut F fo (fun s => forall s2, R s s2 -> dir_eof fo s2) (fun s => forall s2, R s s2 -> dirs_eof fo s2)).
  - intros p id mkB s0 Hk _ IH s2 E. apply (R_other _ _ _ _ (block_takes _ _ Hk)) in E as (s3 & -> & E). econstructor; eauto.
  - intros s2 E. apply R_nil in E. subst. constructor.
  - intros s0 _ IH s2 E. apply dse_in. auto.
  - intros s0 d s' Hd _ IH s2 E. destruct (proj1 R_both _ _ _ Hd _ E) as (r2 & E2 & G). eapply dse_cons; eauto.
Qed.
Lemma R_scene_eof s s2 : R s s2 -> scene_eof fo s -> scene_eof fo s2.
Proof.
  intros E H. revert E. destruct H as [s0 H|s0 pres s' Hp Hd]; intros E.
  - apply se_pre. revert s2 E. induction H as [|s d s' Hd H IH]; intros s2 E.
    + apply R_nil in E. subst. constructor.
    + destruct (R_predirective _ _ _ Hd _ E) as (r2 & [E2|Hs] & G2); [eapply pe_cons; eauto|].
      exfalso. destruct H as [|? ? ? Hd2]; [destruct Hs|exact (stuck_pre _ _ _ Hd2 Hs)].
  - destruct (R_predirectives _ _ _ Hp _ E) as (s3 & E3 & Gp). eapply se_world; [exact Gp|]. eapply R_dir_eof; eauto.
Qed.

Lemma rearranged_parse s s2 : R s s2 -> same_result (parse_tokens fo s) (parse_tokens fo s2).
Proof.
  intros E. destruct (parse_tokens_total fo s) as [(x & Hx & X)|[(Hs & X)|(m & X)]]; rewrite X.
  - apply (R_scene _ _ _ E) in Hx. apply parse_tokens_iff in Hx. now rewrite Hx.
  - apply (R_scene_eof _ _ E) in Hs. apply parse_tokens_eof_iff in Hs. now rewrite Hs.
  - destruct (parse_tokens_total fo s2) as [(x & Hx & X2)|[(Hs & X2)|(m2 & X2)]]; rewrite X2.
    + apply (R_scene _ _ _ (R_sym _ _ E)) in Hx. apply parse_tokens_iff in Hx. congruence.
    + apply (R_scene_eof _ _ (R_sym _ _ E)) in Hs. apply parse_tokens_eof_iff in Hs. congruence.
    + exact I.
Qed.
Lemma same_result_outcome (x y z : out (result (list (PreDirective F) * Directive F) (error F))) :
  same_result x y -> same_outcome z y -> same_outcome z x.
Proof.
  destruct x as [[x|[]]| |], y as [[y|[]]| |]; cbn; try contradiction; intros H; subst; destruct z as [[z|[]]| |]; cbn; auto; contradiction.
Qed.
(** Two texts: the tokens of the one are, but for places, those of the other in another order. *)
Lemma rearranged_texts cc cc' chk chk' input input' s s' u :
  tokenize fo cc chk input = Done (Ok s) -> tokenize fo cc' chk' input' = Done (Ok s') ->
  R s u -> kinds s' = kinds u -> same_outcome (parse fo cc' chk' input') (parse fo cc chk input).
Proof.
  intros E E' H K. unfold parse. rewrite E, E'. cbn.
  eapply same_result_outcome; [apply rearranged_parse; eassumption|]. now apply kinds_parse.
Qed.
(** One swap. *)
Lemma listing_app c l c' l' : listing fo c l -> listing fo c' l' -> listing fo (c ++ c') (l ++ l').
Proof.
  intros H H' r. rewrite <- app_assoc. specialize (H (c' ++ r)). remember (c' ++ r) as x eqn:E.
  induction H as [s|s i0 s' l0 r0 Hp H IH]; [subst; apply H'|]. cbn. eapply sp_cons; eauto.
Qed.
Lemma reorder_tail (l0 l l' : list (pitem (F := F))) : reorder l l' -> reorder (l0 ++ l) (l0 ++ l').
Proof. intros H. induction l0; [assumption|]. cbn. now constructor. Qed.
Lemma swap_two a p id n h c l i j ci cj (b : toks) :
  In (id, n) takes_params -> length h = n -> Forall a_string h -> listing fo c l ->
  listing fo ci [i] -> listing fo cj [j] -> kind_of (pi_val i) <> kind_of (pi_val j) ->
  same_result (parse_tokens fo (a ++ mkTok p (TIdent id) :: h ++ c ++ ci ++ cj ++ b))
              (parse_tokens fo (a ++ mkTok p (TIdent id) :: h ++ c ++ cj ++ ci ++ b)).
Proof.
  intros Hi Hl Ha Hc Hci Hcj Hk. apply rearranged_parse.
  induction a as [|t a IH]; [|cbn; now constructor]. cbn [app].
  replace (c ++ ci ++ cj ++ b) with ((c ++ ci ++ cj) ++ b) by (now rewrite !app_assoc).
  replace (c ++ cj ++ ci ++ b) with ((c ++ cj ++ ci) ++ b) by (now rewrite !app_assoc).
  eapply rg_params; try eassumption; [| | |apply R_refl].
  - eapply listing_app; [eassumption|]. eapply listing_app; eassumption.
  - eapply listing_app; [eassumption|]. eapply listing_app; eassumption.
  - apply reorder_tail. cbn. now apply ro_swap.
Qed.

(** The other way: the same parameter set means the same list but for such changes. *)
Definition kind_eq (a b : pkind) : {a = b} + {a <> b}.
Proof. decide equality. Defined.
Definition of_kind (k : pkind) (l : list (pitem (F := F))) : list pitem :=
  filter (fun i => if kind_eq (kind_of (pi_val i)) k then true else false) l.
Lemma front i l1 l2 : of_kind (kind_of (pi_val i)) l1 = [] -> reorder (l1 ++ i :: l2) (i :: l1 ++ l2).
Proof.
  induction l1 as [|j l1 IH]; [constructor|]. unfold of_kind. cbn. destruct (kind_eq _ _) as [E|E]; [discriminate|].
  intros H. eapply ro_trans; [apply ro_skip, IH; exact H|]. apply ro_swap. exact E.
Qed.
Lemma filter_first (f : pitem (F := F) -> bool) i x l : filter f l = i :: x -> exists l1 l2, l = l1 ++ i :: l2 /\ filter f l1 = [] /\ filter f l2 = x.
Proof.
  induction l as [|j l IH]; [discriminate|]. cbn. destruct (f j) eqn:E.
  - intros [= -> H]. exists [], l. auto.
  - intros H. destruct (IH H) as (l1 & l2 & -> & H1 & H2). exists (j :: l1), l2. cbn. rewrite E. auto.
Qed.
Lemma of_kind_reorder l : forall l', (forall k, of_kind k l = of_kind k l') -> reorder l l'.
Proof.
  induction l as [|i l IH]; intros l' H.
  - destruct l' as [|j l']; [constructor|]. specialize (H (kind_of (pi_val j))). unfold of_kind in H. cbn in H.
    destruct (kind_eq _ _); [discriminate|congruence].
  - pose proof (H (kind_of (pi_val i))) as Hi. unfold of_kind in Hi. cbn [filter] in Hi.
    destruct (kind_eq (kind_of (pi_val i)) (kind_of (pi_val i))) as [_|E]; [|congruence].
    symmetry in Hi. apply filter_first in Hi as (l1 & l2 & -> & H1 & H2).
    eapply ro_trans; [|apply reorder_sym, front; exact H1]. apply ro_skip, IH. intros k. specialize (H k).
    unfold of_kind in *. cbn [filter] in H. rewrite filter_app in *. cbn [filter] in H.
    destruct (kind_eq (kind_of (pi_val i)) k) as [E|E]; [|exact H]. subst k.
    rewrite H1 in *. cbn in *. now injection H.
Qed.
Lemma pick_of_kind {T} (sel : pval -> option (list T)) (k : pkind) :
  (forall v, kind_of v = k <-> sel v <> None) -> (forall v w x, sel v = Some x -> sel w = Some x -> v = w) ->
  forall l l' : list (pitem (F := F)), pick sel l = pick sel l' -> of_kind k l = of_kind k l'.
Proof.
  intros Hk Hs.
  assert (X : forall l, pick sel l = pick sel (of_kind k l) /\ Forall (fun i => kind_of (pi_val i) = k) (of_kind k l)).
  { induction l as [|i l [IH IH']]; [split; constructor|]. unfold of_kind in *. unfold pick in *. cbn.
    destruct (kind_eq (kind_of (pi_val i)) k) as [E|E].
    - split; [cbn; now rewrite IH|now constructor].
    - split; [|assumption]. destruct (sel (pi_val i)) eqn:Es; [|assumption].
      exfalso. apply E. apply Hk. now rewrite Es. }
  intros l l' E. destruct (X l) as [E1 F1]. destruct (X l') as [E2 F2]. rewrite E1, E2 in E.
  revert F1 F2 E. generalize (of_kind k l) (of_kind k l'). clear -Hk Hs. induction l as [|[n p v] l IH]; intros [|[n' p' v'] l'] F1 F2 E.
  - reflexivity.
  - exfalso. inversion F2 as [|? ? Hv]. cbn in Hv. apply Hk in Hv. unfold pick in E. cbn in E. destruct (sel v'); [discriminate|congruence].
  - exfalso. inversion F1 as [|? ? Hv]. cbn in Hv. apply Hk in Hv. unfold pick in E. cbn in E. destruct (sel v); [discriminate|congruence].
  - pose proof (Forall_inv F1) as Hv. pose proof (Forall_inv F2) as Hv'. apply Forall_inv_tail in F1, F2. cbn in Hv, Hv'. apply Hk in Hv, Hv'.
    unfold pick in E. cbn in E. destruct (sel v) eqn:Ev; [|congruence]. destruct (sel v') eqn:Ev'; [|congruence].
    cbn in E. injection E as En Ep El E. subst. rewrite (Hs _ _ _ Ev Ev'). f_equal. apply IH; assumption.
Qed.
Lemma collect_of_kind (l l' : list (pitem (F := F))) : collect l = collect l' -> forall k, of_kind k l = of_kind k l'.
Proof.
  unfold collect. intros E. injection E as E1 E2 E3 E4 E5 E6 E7 E8.
  intros []; [eapply pick_of_kind; [| |exact E2]|eapply pick_of_kind; [| |exact E3]|eapply pick_of_kind; [| |exact E4]|
    eapply pick_of_kind; [| |exact E5]|eapply pick_of_kind; [| |exact E1]|eapply pick_of_kind; [| |exact E7]|
    eapply pick_of_kind; [| |exact E6]|eapply pick_of_kind; [| |exact E8]].
  all: try (intros [] [] x; congruence).
  all: intros []; cbn; split; congruence.
Qed.
Lemma collect_iff (l l' : list (pitem (F := F))) : collect l = collect l' <-> reorder l l'.
Proof. split; [intros E; apply of_kind_reorder, collect_of_kind, E|apply collect_reorder]. Qed.

(** In a scene with one shape. *)
Lemma one_shape_scene p q r t ty c l : listing fo c l ->
  parse_tokens fo (one_shape p q r t ty c) = Done (Ok ([], DWorld p [DShape (mkDS ty q (collect l))])).
Proof.
  intros H. apply parse_tokens_iff. eapply sc; [apply pds_world|]. apply (di_block fo p _ DWorld); [constructor|].
  eapply ds_cons; [|apply ds_close with (p := t) (s := [])].
  - eapply di_struct; [constructor|]. rewrite <- (app_nil_r l). eapply params_app; [apply H|]. apply ps_end. exact I.
  - right; right; left. reflexivity.
Qed.
Lemma one_shape_iff p q r t ty c c' l l' : listing fo c l -> listing fo c' l' ->
  (parse_tokens fo (one_shape p q r t ty c) = parse_tokens fo (one_shape p q r t ty c') <-> reorder l l').
Proof.
  intros H H'. rewrite (one_shape_scene _ _ _ _ _ _ _ H), (one_shape_scene _ _ _ _ _ _ _ H'). rewrite <- collect_iff.
  split; [|now intros ->]. intros E.
  exact (f_equal (fun o => match o with Done (Ok (_, DWorld _ [DShape d])) => ds_params d | _ => collect l end) E).
Qed.
End Reorder.
