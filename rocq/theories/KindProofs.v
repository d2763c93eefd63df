(** Positions do not influence parsing: token lists with the same kinds give the same result up to positions. *)
From Verif Require Import Base TokModel ParModel SceneSpec SceneObs TokProofs ParProofs DirProofs SceneThms.

Section Kind.
Context {F : Type} (fo : FloatOps F).
Notation toks := (list (Token F)).

Lemma kinds_cons (s : toks) k ks : kinds s = k :: ks -> exists p s', s = mkTok p k :: s' /\ kinds s' = ks.
Proof. destruct s as [|[p k'] s]; [discriminate|]. cbn. intros [= -> E]. eauto. Qed.
Lemma kinds_nil (s : toks) : kinds s = [] -> s = [].
Proof. now destruct s. Qed.
Ltac kc H := let p := fresh "p" in let s := fresh "s" in
  cbn [kinds map tok_ty] in H; apply kinds_cons in H as (p & s & -> & H).

Definition kfree {T} (item : toks -> T -> toks -> Prop) : Prop := forall s v r, item s v r ->
  forall s2, kinds s2 = kinds s -> exists r2, kinds r2 = kinds r /\ item s2 v r2.
Lemma kf_int : kfree int_item.
Proof. intros s v r [p i r0] s2 E. kc E. eexists. split; [exact E|constructor]. Qed.
Lemma kf_str : kfree str_item.
Proof. intros s v r [p i r0] s2 E. kc E. eexists. split; [exact E|constructor]. Qed.
Lemma kf_bool : kfree bool_item.
Proof. intros s v r [p r0|p r0] s2 E; kc E; (eexists; split; [exact E|constructor]). Qed.
Lemma kf_float : kfree (float_item fo).
Proof. intros s v r [p x r0|p i r0] s2 E; kc E; (eexists; split; [exact E|constructor]). Qed.
Lemma kf_point2 : kfree (point2_item fo).
Proof.
  intros s v r [s0 a s' b r0 H1 H2] s2 E. destruct (kf_float _ _ _ H1 _ E) as (r2 & E2 & G1).
  destruct (kf_float _ _ _ H2 _ E2) as (r3 & E3 & G2). exists r3. split; [assumption|]. econstructor; eauto.
Qed.
Lemma kf_vector2 : kfree (vector2_item fo).
Proof.
  intros s v r [s0 a s' b r0 H1 H2] s2 E. destruct (kf_float _ _ _ H1 _ E) as (r2 & E2 & G1).
  destruct (kf_float _ _ _ H2 _ E2) as (r3 & E3 & G2). exists r3. split; [assumption|]. econstructor; eauto.
Qed.
Section Items.
Context {T : Type} (item : toks -> T -> toks -> Prop) (Hf : kfree item).
Lemma kf_items : kfree (items item).
Proof.
  intros s v r H. induction H as [s v r H|s v s' vs r H H' IH]; intros s2 E; destruct (Hf _ _ _ H _ E) as (r2 & E2 & G).
  - exists r2. split; [assumption|]. now apply it_one.
  - destruct (IH _ E2) as (r3 & E3 & G3). exists r3. split; [assumption|]. eapply it_more; eauto.
Qed.
Lemma kf_bracketed : kfree (bracketed item).
Proof.
  intros s v r [p s0 vs q r0 H] s2 E. kc E. destruct (kf_items _ _ _ H _ E) as (r2 & E2 & G). kc E2.
  eexists. split; [exact E2|]. econstructor. exact G.
Qed.
Lemma kf_one_or_list : kfree (one_or_list item).
Proof.
  intros s v r [s0 v0 r0 H|s0 vs r0 H] s2 E.
  - destruct (Hf _ _ _ H _ E) as (r2 & E2 & G). exists r2. split; [assumption|]. now apply ol_one.
  - destruct (kf_bracketed _ _ _ H _ E) as (r2 & E2 & G). exists r2. split; [assumption|]. now apply ol_list.
Qed.
End Items.
Lemma kf_value ty : kfree (value fo ty).
Proof.
  intros s v r H s2 E; destruct H;
  match goal with
  | H : one_or_list int_item _ _ _ |- _ => destruct (kf_one_or_list _ kf_int _ _ _ H _ E) as (r2 & E2 & G)
  | H : one_or_list str_item _ _ _ |- _ => destruct (kf_one_or_list _ kf_str _ _ _ H _ E) as (r2 & E2 & G)
  | H : one_or_list bool_item _ _ _ |- _ => destruct (kf_one_or_list _ kf_bool _ _ _ H _ E) as (r2 & E2 & G)
  | H : one_or_list (float_item _) _ _ _ |- _ => destruct (kf_one_or_list _ kf_float _ _ _ H _ E) as (r2 & E2 & G)
  | H : bracketed (float_item _) _ _ _ |- _ => destruct (kf_bracketed _ kf_float _ _ _ H _ E) as (r2 & E2 & G)
  | H : bracketed (point2_item _) _ _ _ |- _ => destruct (kf_bracketed _ kf_point2 _ _ _ H _ E) as (r2 & E2 & G)
  | H : bracketed (vector2_item _) _ _ _ |- _ => destruct (kf_bracketed _ kf_vector2 _ _ _ H _ E) as (r2 & E2 & G)
  | H : str_item _ _ _ |- _ => destruct (kf_str _ _ _ H _ E) as (r2 & E2 & G)
  end; (exists r2; split; [assumption|constructor; exact G]).
Qed.
Lemma k_open_items ty s r : open_items fo ty s r -> forall s2, kinds s2 = kinds s ->
  exists r2, kinds r2 = kinds r /\ open_items fo ty s2 r2.
Proof.
  intros H s2 E; destruct H;
  match goal with
  | H : items int_item _ _ _ |- _ => destruct (kf_items _ kf_int _ _ _ H _ E) as (r2 & E2 & G)
  | H : items str_item _ _ _ |- _ => destruct (kf_items _ kf_str _ _ _ H _ E) as (r2 & E2 & G)
  | H : items bool_item _ _ _ |- _ => destruct (kf_items _ kf_bool _ _ _ H _ E) as (r2 & E2 & G)
  | H : items (float_item _) _ _ _ |- _ => destruct (kf_items _ kf_float _ _ _ H _ E) as (r2 & E2 & G)
  | H : items (point2_item _) _ _ _ |- _ => destruct (kf_items _ kf_point2 _ _ _ H _ E) as (r2 & E2 & G)
  | H : items (vector2_item _) _ _ _ |- _ => destruct (kf_items _ kf_vector2 _ _ _ H _ E) as (r2 & E2 & G)
  end; (exists r2; split; [assumption|econstructor; exact G]).
Qed.

Lemma k_quiet (s s2 : toks) : kinds s2 = kinds s -> quiet s -> quiet s2.
Proof.
  destruct s as [|[p k] s]; intros E; [apply kinds_nil in E; now subst|]. kc E. now destruct k.
Qed.
Lemma k_not_number (s s2 : toks) : kinds s2 = kinds s -> not_number s -> not_number s2.
Proof.
  destruct s as [|[p k] s]; intros E; [apply kinds_nil in E; now subst|]. kc E. now destruct k.
Qed.
Lemma k_dropped s r : dropped fo s r -> forall s2, kinds s2 = kinds s -> exists r2, kinds r2 = kinds r /\ dropped fo s2 r2.
Proof.
  intros [p h ty name r0 Hh Hk Hq|p q h ty name r0 Hh Hk Ht Hq|p q h ty name s0 r0 Hh Ho Hq|p h name s0 l r0 Hh Hb Hl Hq] s2 E; kc E.
  - eexists. split; [exact E|]. eapply dr_no_value; eauto using k_quiet.
  - kc E. eexists. split; [exact E|]. eapply dr_empty; eauto using k_quiet.
  - kc E. destruct (k_open_items _ _ _ Ho _ E) as (r2 & E2 & G). exists r2. split; [assumption|]. eapply dr_open; eauto using k_quiet.
  - destruct (kf_bracketed _ kf_float _ _ _ Hb _ E) as (r2 & E2 & G). exists r2. split; [assumption|].
    eapply dr_odd; eauto using k_quiet.
Qed.

Definition erase_pi (i : pitem) : pitem (F := F) := mkPI (pi_name i) pos0 (pi_val i).
Lemma pick_erase {T} (sel : pval -> option (list T)) l : map erase_param (pick sel l) = pick sel (map erase_pi l).
Proof.
  unfold pick. induction l as [|[n p v] l IH]; [reflexivity|]. cbn. rewrite map_app, IH. now destruct (sel v).
Qed.
Lemma erase_collect l : erase_ps (collect l) = collect (map erase_pi l).
Proof. unfold erase_ps, collect. cbn. now rewrite !pick_erase. Qed.
Lemma erase_collect_eq l l2 : map erase_pi l2 = map erase_pi l -> erase_ps (collect l2) = erase_ps (collect l).
Proof. intros E. now rewrite !erase_collect, E. Qed.

Lemma k_param s i r : param fo s i r -> forall s2, kinds s2 = kinds s ->
  exists i2 r2, kinds r2 = kinds r /\ erase_pi i2 = erase_pi i /\ param fo s2 i2 r2.
Proof.
  intros [p h ty name s0 v r0 Hh H] s2 E. kc E. destruct (kf_value _ _ _ _ H _ E) as (r2 & E2 & G).
  do 2 eexists. split; [exact E2|]. split; [|econstructor; eauto]. reflexivity.
Qed.
Lemma k_params s l r : params fo s l r -> forall s2, kinds s2 = kinds s ->
  exists l2 r2, kinds r2 = kinds r /\ map erase_pi l2 = map erase_pi l /\ params fo s2 l2 r2.
Proof.
  induction 1 as [s Hq|s r Hd|s i s' l r Hp H IH]; intros s2 E.
  - exists [], s2. split; [assumption|]. split; [reflexivity|]. apply ps_end. eauto using k_quiet.
  - destruct (k_dropped _ _ Hd _ E) as (r2 & E2 & G). exists [], r2. split; [assumption|]. split; [reflexivity|]. now apply ps_drop.
  - destruct (k_param _ _ _ Hp _ E) as (i2 & r2 & E2 & Ei & G). destruct (IH _ E2) as (l2 & r3 & E3 & El & G3).
    exists (i2 :: l2), r3. split; [assumption|]. split; [cbn; now rewrite Ei, El|]. eapply ps_cons; eauto.
Qed.

Lemma erase_struct id mkD (d d2 : DirectiveStruct F) : struct_kw id mkD -> erase_ds d2 = erase_ds d -> erase_dir (mkD d2) = erase_dir (mkD d).
Proof. intros [] E; cbn; now rewrite E. Qed.
Lemma erase_block id mkB p p2 (ds ds2 : list (Directive F)) : block_kw id mkB -> map erase_dir ds2 = map erase_dir ds ->
  erase_dir (mkB p2 ds2) = erase_dir (mkB p ds).
Proof. intros [] E; cbn; now rewrite E. Qed.
Lemma erase_ds_collect ty p p2 l l2 : map erase_pi l2 = map erase_pi l ->
  erase_ds (mkDS ty p2 (collect l2)) = erase_ds (mkDS ty p (collect l)).
Proof. intros E. unfold erase_ds. cbn [ds_ty ds_params]. now rewrite (erase_collect_eq _ _ E). Qed.

Lemma k_both :
  (forall s d r, directive fo s d r -> forall s2, kinds s2 = kinds s ->
     exists d2 r2, kinds r2 = kinds r /\ erase_dir d2 = erase_dir d /\ directive fo s2 d2 r2) /\
  (forall s ds r, directives fo s ds r -> forall s2, kinds s2 = kinds s ->
     exists ds2 r2, kinds r2 = kinds r /\ map erase_dir ds2 = map erase_dir ds /\ directives fo s2 ds2 r2).
Proof.
  apply (dir_both F fo
    (fun s d r => forall s2, kinds s2 = kinds s ->
       exists d2 r2, kinds r2 = kinds r /\ erase_dir d2 = erase_dir d /\ directive fo s2 d2 r2)
    (fun s ds r => forall s2, kinds s2 = kinds s ->
       exists ds2 r2, kinds r2 = kinds r /\ map erase_dir ds2 = map erase_dir ds /\ directives fo s2 ds2 r2)).
  - intros p id mkD q ty s0 l r0 Hk Hp s2 E. kc E. kc E. destruct (k_params _ _ _ Hp _ E) as (l2 & r2 & E2 & El & G).
    do 2 eexists. split; [exact E2|]. split; [|econstructor; eauto].
    eapply erase_struct; [eassumption|]. now apply erase_ds_collect.
  - intros p id mkB s0 ds r0 Hk _ IH s2 E. kc E. destruct (IH _ E) as (ds2 & r2 & E2 & El & G).
    do 2 eexists. split; [exact E2|]. split; [|econstructor; eauto]. eapply erase_block; eauto.
  - intros p q path r0 s2 E. kc E. kc E. do 2 eexists. split; [exact E|]. split; [|apply di_include]. reflexivity.
  - intros p q1 name q2 ty q3 class s0 l r0 Hp s2 E. kc E. kc E. kc E. kc E.
    destruct (k_params _ _ _ Hp _ E) as (l2 & r2 & E2 & El & G).
    do 2 eexists. split; [exact E2|]. split; [|apply di_texture; eauto].
    cbn. unfold erase_ts. cbn [ts_name ts_ty ts_class ts_params]. now rewrite (erase_collect_eq _ _ El).
  - intros p id s0 Hc s2 E. pose proof E as E'. kc E. do 2 eexists. split; [|split; [|apply ds_close; exact Hc]]; [|reflexivity].
    exact E'.
  - intros s0 d s' ds r _ IH1 _ IH2 s2 E. destruct (IH1 _ E) as (d2 & r2 & E2 & Ed & G2).
    destruct (IH2 _ E2) as (ds2 & r3 & E3 & Eds & G3). exists (d2 :: ds2), r3. split; [assumption|].
    split; [cbn; now rewrite Ed, Eds|]. econstructor; eauto.
Qed.

Lemma k_predirective s d r : predirective fo s d r -> forall s2, kinds s2 = kinds s ->
  exists d2 r2, kinds r2 = kinds r /\ erase_pre d2 = erase_pre d /\ predirective fo s2 d2 r2.
Proof.
  intros [p r0|p id fl d0 s0 r0 Hk Hi Hr|p id mkP q w r0 Hk|p q w r0|p id mkP q ty s0 l r0 Hk Hp] s2 E; kc E.
  - do 2 eexists. split; [exact E|]. split; [|constructor]. reflexivity.
  - destruct (kf_items _ kf_float _ _ _ Hi _ E) as (r2 & E2 & G).
    assert (X : exists d2, numbers_kw id p0 fl d2 /\ erase_pre d2 = erase_pre d0)
      by (destruct Hk; (eexists; split; [constructor|reflexivity])).
    destruct X as (d2 & Hk2 & Ed). exists d2, r2. split; [assumption|]. split; [assumption|]. econstructor; eauto using k_not_number.
  - kc E. do 2 eexists. split; [exact E|]. split; [|constructor; eassumption]. now destruct Hk.
  - kc E. do 2 eexists. split; [exact E|]. split; [|apply pd_active]. reflexivity.
  - kc E. destruct (k_params _ _ _ Hp _ E) as (l2 & r2 & E2 & El & G).
    exists (mkP (mkDS ty p0 (collect l2))), r2. split; [exact E2|]. split; [|eapply pd_struct; eauto].
    destruct Hk; cbn; now rewrite (erase_ds_collect _ p _ _ _ El).
Qed.
Lemma k_predirectives s ds r : predirectives fo s ds r -> forall s2, kinds s2 = kinds s ->
  exists ds2 r2, kinds r2 = kinds r /\ map erase_pre ds2 = map erase_pre ds /\ predirectives fo s2 ds2 r2.
Proof.
  induction 1 as [p s|s d s' ds r Hd H IH]; intros s2 E.
  - pose proof E as E'. kc E. do 2 eexists. split; [|split; [|constructor]]; [exact E'|reflexivity].
  - destruct (k_predirective _ _ _ Hd _ E) as (d2 & r2 & E2 & Ed & G2). destruct (IH _ E2) as (ds2 & r3 & E3 & Eds & G3).
    exists (d2 :: ds2), r3. split; [assumption|]. split; [cbn; now rewrite Ed, Eds|]. econstructor; eauto.
Qed.
Lemma k_scene s x s2 : kinds s2 = kinds s -> scene fo s x -> exists x2, erase_scene x2 = erase_scene x /\ scene fo s2 x2.
Proof.
  intros E H. revert E. destruct H as [s0 pres s' w r Hp Hd]. intros E. destruct (k_predirectives _ _ _ Hp _ E) as (pres2 & s3 & E3 & Ep & Gp).
  destruct (proj1 k_both _ _ _ Hd _ E3) as (w2 & r2 & E2 & Ew & Gw). exists (pres2, w2). split; [|econstructor; eauto].
  unfold erase_scene. cbn. now rewrite Ep, Ew.
Qed.

Lemma k_dir_eof s : dir_eof fo s -> forall s2, kinds s2 = kinds s -> dir_eof fo s2.
Proof.
  apply (dir_eof_mut F fo (fun s => forall s2, kinds s2 = kinds s -> dir_eof fo s2)
                          (fun s => forall s2, kinds s2 = kinds s -> dirs_eof fo s2)).
  - intros p id mkB s0 Hk _ IH s2 E. kc E. econstructor; eauto.
  - intros s2 E. apply kinds_nil in E. subst. constructor.
  - intros s0 _ IH s2 E. apply dse_in. auto.
  - intros s0 d s' Hd _ IH s2 E. destruct (proj1 k_both _ _ _ Hd _ E) as (d2 & r2 & E2 & _ & G). eapply dse_cons; eauto.
Qed.
Lemma k_scene_eof s s2 : kinds s2 = kinds s -> scene_eof fo s -> scene_eof fo s2.
Proof.
  intros E H. revert E. destruct H as [s0 H|s0 pres s' Hp Hd]; intros E.
  - apply se_pre. revert s2 E. induction H as [|s d s' Hd H IH]; intros s2 E.
    + apply kinds_nil in E. subst. constructor.
    + destruct (k_predirective _ _ _ Hd _ E) as (d2 & r2 & E2 & _ & G2). eapply pe_cons; eauto.
  - destruct (k_predirectives _ _ _ Hp _ E) as (pres2 & s3 & E3 & _ & Gp). eapply se_world; [exact Gp|].
    eapply k_dir_eof; eauto.
Qed.

Lemma kinds_parse s s2 : kinds s2 = kinds s -> same_outcome (parse_tokens fo s2) (parse_tokens fo s).
Proof.
  intros E. destruct (parse_tokens_total fo s) as [(x & Hx & R)|[(Hs & R)|(m & R)]]; rewrite R.
  - destruct (k_scene s x s2 E Hx) as (x2 & Ex & Hx2). apply parse_tokens_iff in Hx2. rewrite Hx2. exact Ex.
  - apply (k_scene_eof s s2 E) in Hs. apply parse_tokens_eof_iff in Hs. now rewrite Hs.
  - destruct (parse_tokens_total fo s2) as [(x & Hx & R2)|[(Hs & R2)|(m2 & R2)]]; rewrite R2.
    + destruct (k_scene s2 x s (eq_sym E) Hx) as (x2 & Ex & Hx2). apply parse_tokens_iff in Hx2. congruence.
    + apply (k_scene_eof s2 s (eq_sym E)) in Hs. apply parse_tokens_eof_iff in Hs. congruence.
    + exact I.
Qed.
End Kind.
