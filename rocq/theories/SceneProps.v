(** The lemmas that PropsScene.v closes its theorems with. *)
From Coq Require Import Sorted.
From Verif Require Import Base TokModel ParModel LexSpec SceneSpec SceneObs TokProofs LexProofs LexThms ParProofs DirProofs
  SimProofs TextThms SceneThms KindProofs.

Section S.
Context {F : Type} (fo : FloatOps F).
Notation toks := (list (Token F)).

(** ** C13, C14, C15, C16, C17 *)
Lemma ok_shape s x : parse_tokens fo s = Done (Ok x) -> exists a p mid t rest, shape fo s x a p mid t rest.
Proof. intros H. apply scene_shape. now apply parse_tokens_iff. Qed.

Lemma world_after_pre s x : parse_tokens fo s = Done (Ok x) ->
  exists a p b ds, s = a ++ mkTok p (TIdent (s2l "WorldBegin")) :: b /\ snd x = DWorld p ds /\
    map pre_pos (fst x) = map tok_pos (starters a) /\ Forall (fun t => ~ is_kw (s2l "WorldBegin") t) (starters a).
Proof.
  intros H. destruct (ok_shape _ _ H) as (a & p & mid & t & rest & [E C N P W (ds & Ed) Nd R Wr T]).
  exists a, p, (mid ++ t :: rest), ds. auto.
Qed.

Lemma first_closer s x : parse_tokens fo s = Done (Ok x) ->
  exists a p mid t rest, s = a ++ mkTok p (TIdent (s2l "WorldBegin")) :: mid ++ t :: rest /\
    dir_pos (snd x) = p /\ is_closer_tok t /\ Forall (fun t => ~ is_closer_tok t) mid /\
    map dir_pos (nodes (snd x)) = p :: map tok_pos (filter is_ident mid) /\
    forall t' rest', is_closer_tok t' ->
      parse_tokens fo (a ++ mkTok p (TIdent (s2l "WorldBegin")) :: mid ++ t' :: rest') = Done (Ok x).
Proof.
  intros H. destruct (ok_shape _ _ H) as (a & p & mid & t & rest & [E C N P W (ds & Ed) Nd R Wr T]).
  exists a, p, mid, t, rest. rewrite Ed. repeat split; try assumption.
  - now rewrite <- Ed.
  - intros t' rest' Ht. apply parse_tokens_iff. now apply R.
Qed.
Lemma nothing_after s x : parse_tokens fo s = Done (Ok x) ->
  exists front t rest, s = front ++ t :: rest /\ is_closer_tok t /\
    forall rest', parse_tokens fo (front ++ t :: rest') = Done (Ok x).
Proof.
  intros H. destruct (first_closer _ _ H) as (a & p & mid & t & rest & -> & _ & Ht & _ & _ & G).
  exists (a ++ mkTok p (TIdent (s2l "WorldBegin")) :: mid), t, rest. split; [now rewrite <- app_assoc|]. split; [assumption|].
  intros rest'. rewrite <- app_assoc. now apply G.
Qed.
Lemma needs_world s : (forall t, In t s -> ~ is_kw (s2l "WorldBegin") t) -> exists e, parse_tokens fo s = Done (Err e).
Proof.
  intros H. destruct (parse_tokens_no_panic fo s) as [[x|e] E]; [|eauto].
  destruct (first_closer _ _ E) as (a & p & mid & t & rest & -> & _).
  elim (H (mkTok p (TIdent (s2l "WorldBegin")))); [rewrite in_app_iff; right; now left|reflexivity].
Qed.
Lemma needs_closer s : (forall a p b, s = a ++ mkTok p (TIdent (s2l "WorldBegin")) :: b ->
    forall t, In t b -> ~ is_closer_tok t) -> exists e, parse_tokens fo s = Done (Err e).
Proof.
  intros H. destruct (parse_tokens_no_panic fo s) as [[x|e] E]; [|eauto].
  destruct (first_closer _ _ E) as (a & p & mid & t & rest & Es & _ & Ht & _).
  elim (H a p (mid ++ t :: rest) Es t); [rewrite in_app_iff; right; now left|assumption].
Qed.

(** ** C18 *)
Lemma num_items nums vals rest : Forall2 (num_value fo) nums vals -> vals <> [] ->
  items (float_item fo) (nums ++ rest) vals rest.
Proof.
  induction 1 as [|t v nums vals Ht H IH]; [congruence|]. intros _. cbn [app].
  assert (Hi : float_item fo (t :: nums ++ rest) v (nums ++ rest)) by (destruct Ht; constructor).
  destruct vals as [|v' vals]; [inversion H; subst; now apply it_one|]. eapply it_more; [exact Hi|]. now apply IH.
Qed.
Lemma items_num s vals r : items (float_item fo) s vals r -> not_number r ->
  forall nums vs rest, Forall2 (num_value fo) nums vs -> not_number rest -> s = nums ++ rest -> vals = vs /\ r = rest.
Proof.
  induction 1 as [s v r H|s v s' vals r H H' IH]; intros Hr nums vs rest Hn Hrest E.
  - destruct Hn as [|t v' nums vs Ht Hn]; cbn [app] in E; subst s.
    + inversion H; subst; contradiction.
    + assert (v = v' /\ r = nums ++ rest) as [-> ->] by (destruct Ht; inversion H; subst; auto).
      destruct Hn as [|t2 v2 nums vs Ht2 Hn]; [auto|]. destruct Ht2; contradiction.
  - destruct Hn as [|t v' nums vs Ht Hn]; cbn [app] in E; subst s.
    + inversion H; subst; contradiction.
    + assert (v = v' /\ s' = nums ++ rest) as [-> ->] by (destruct Ht; inversion H; subst; auto).
      destruct (IH Hr nums vs rest Hn Hrest eq_refl) as [-> ->]. auto.
Qed.
Ltac lenlist l := repeat (destruct l as [|? l]; cbn in *; try lia).
Lemma kw_values id n (p : Pos) (vals : list F) : In (id, n) number_kws -> length vals = n -> exists d, numbers_kw id p vals d.
Proof.
  intros H Hl. cbn in H. decompose [or] H; clear H; try contradiction;
  match goal with H : _ = (id, n) |- _ => injection H as <- <- end; lenlist vals; eexists; constructor.
Qed.
Lemma kw_count id n p (vals : list F) d : In (id, n) number_kws -> numbers_kw id p vals d -> length vals = n.
Proof.
  intros H Hk. cbn in H. decompose [or] H; clear H; try contradiction;
  match goal with H : _ = (id, n) |- _ => injection H as <- <- end; inversion Hk; reflexivity.
Qed.
Lemma kw_only_numbers id n p s (d : PreDirective F) r : In (id, n) number_kws -> predirective fo (mkTok p (TIdent id) :: s) d r ->
  exists fl, numbers_kw id p fl d /\ items (float_item fo) s fl r /\ not_number r.
Proof.
  intros H Hp. inversion Hp as [p0 r0|p0 id0 fl d0 s0 r0 Hk Hi Hr|p0 id0 mkP q w r0 Hk|p0 q w r0|p0 id0 mkP q ty s0 l r0 Hk Hps]; subst.
  - cbn in H. decompose [or] H; try contradiction; discriminate.
  - eauto.
  - cbn in H. decompose [or] H; try contradiction; match goal with H : _ = (id, n) |- _ => injection H as <- <- end; inversion Hk.
  - cbn in H. decompose [or] H; try contradiction; discriminate.
  - cbn in H. decompose [or] H; try contradiction; match goal with H : _ = (id, n) |- _ => injection H as <- <- end; inversion Hk.
Qed.
Lemma number_args s ds p id n nums vals rest :
  pre_reaches fo s ds (mkTok p (TIdent id) :: nums ++ rest) -> In (id, n) number_kws ->
  Forall2 (num_value fo) nums vals -> not_number rest ->
  (length nums = n -> exists d, numbers_kw id p vals d /\ pre_reaches fo s (ds ++ [d]) rest) /\
  (length nums <> n -> exists e, parse_tokens fo s = Done (Err e)).
Proof.
  intros Hr Hin Hv Hrest. assert (Hlen : length nums = length vals) by (clear -Hv; induction Hv; cbn; congruence). split.
  - intros Hl. destruct (kw_values id n p vals Hin) as [d Hd]; [congruence|]. exists d. split; [assumption|].
    eapply pr_next; [exact Hr|]. econstructor; [exact Hd| |assumption]. apply num_items; [assumption|].
    intros ->. cbn in Hlen. assert (n = 0) by lia. subst n. rewrite Hlen in Hin. cbn in Hin. decompose [or] Hin; try contradiction; discriminate.
  - intros Hl. destruct (parse_tokens_no_panic fo s) as [[x|e] E]; [|eauto]. exfalso.
    apply parse_tokens_iff in E. destruct (pre_reaches_predirectives fo _ _ _ Hr _ E) as (pres & r & _ & Hp).
    inversion Hp as [p0 s0|s0 d s1 pres0 r0 Hd Hp0]; subst.
    + cbn in Hin. decompose [or] Hin; try contradiction; discriminate.
    + destruct (kw_only_numbers _ _ _ _ _ _ Hin Hd) as (fl & Hk & Hi & Hn).
      destruct (items_num _ _ _ Hi Hn _ _ _ Hv Hrest eq_refl) as [-> ->]. apply kw_count with (n := n) in Hk; [|assumption]. congruence.
Qed.
(** [pre_reaches] is what its name says: the pre-directives read that far are the first ones of every result. *)
Lemma pre_reaches_result s ds s1 x : pre_reaches fo s ds s1 -> parse_tokens fo s = Done (Ok x) -> exists l, fst x = ds ++ l.
Proof.
  intros H E. apply parse_tokens_iff in E. destruct (pre_reaches_predirectives fo _ _ _ H _ E) as (pres & r & Hx & _). eauto.
Qed.

(** ** C19 *)
Lemma params_written s x : parse_tokens fo s = Done (Ok x) -> Forall (written fo s) (nodes (snd x)).
Proof. intros H. now destruct (ok_shape _ _ H) as (a & p & mid & t & rest & [E C N P W Ed Nd R Wr T]). Qed.
Lemma predirectives_in s ds r : predirectives fo s ds r -> Forall (fun d => exists a t u, s = a ++ t /\ predirective fo t d u) ds.
Proof.
  induction 1 as [p s|s d s' ds r Hd H IH]; constructor.
  - exists [], s, s'. auto.
  - destruct (predirective_frame fo _ _ _ Hd) as (c & Hc). pose proof (pf_split _ _ _ _ _ Hc) as ->.
    eapply Forall_impl; [|exact IH]. intros d0 (a & t & u & -> & H0). exists (c ++ a), t, u. split; [apply app_assoc|assumption].
Qed.
Lemma pre_written s x : parse_tokens fo s = Done (Ok x) ->
  Forall (fun d => exists a t u, s = a ++ t /\ predirective fo t d u) (fst x).
Proof. intros H. apply parse_tokens_iff in H. destruct H. eapply predirectives_in; eauto. Qed.

(** ** C20 *)
Lemma some_values_items {T} (item : toks -> T -> toks -> Prop) s l r : items item s l r -> l <> [].
Proof. now intros []. Qed.
Lemma ol_values {T} (item : toks -> T -> toks -> Prop) s l r : one_or_list item s l r -> l <> [].
Proof. intros [|s0 vs r0 []]; [discriminate|]. eapply some_values_items; eauto. Qed.
Lemma br_values {T} (item : toks -> T -> toks -> Prop) s l r : bracketed item s l r -> l <> [].
Proof. intros []. eapply some_values_items; eauto. Qed.
Definition good_pi (i : pitem (F := F)) : Prop :=
  word (pi_name i) /\
  match pi_val i with
  | VInts l => l <> [] | VFloats l => l <> [] | VPoints l => l <> [] | VVectors l => l <> [] | VBools l => l <> []
  | VStrings l => l <> [] | VSpectrum s => s <> SpSpectrum [] | _ => True
  end.
Lemma param_good s i r : param fo s i r -> good_pi i.
Proof.
  intros [p h ty name s0 v r0 Hh Hv]. split; [apply Hh|]. cbn [pi_val].
  destruct Hv as [| | | | | | | |s0 l r0 Hb| | |]; eauto using ol_values, br_values; try discriminate.
  intros [= ->]. now apply br_values in Hb.
Qed.
Lemma params_good s l r : params fo s l r -> Forall good_pi l.
Proof. induction 1; constructor; eauto using param_good. Qed.
Lemma pick_forall {T} (sel : pval -> option (list T)) (P : Param T -> Prop) l :
  Forall good_pi l -> (forall i v, good_pi i -> sel (pi_val i) = Some v -> P (mkParam (pi_name i) (pi_pos i) v)) -> Forall P (pick sel l).
Proof.
  intros H HP. unfold pick. induction H as [|i l Hi H IH]; [constructor|]. cbn [flat_map]. apply Forall_app. split; [|assumption].
  destruct (sel (pi_val i)) eqn:E; constructor; [|constructor]. now apply HP.
Qed.
Lemma collect_wf l : Forall good_pi l -> wf_params (collect l).
Proof.
  intros H. unfold wf_params, collect. cbn.
  repeat apply conj; try reflexivity; (apply pick_forall; [assumption|]); intros [n q v] v' [Hn Hv] E; cbn in *;
    destruct v; try discriminate; injection E as <-; try (split; cbn; auto; fail).
  intros [Hs|[]]. now subst.
Qed.
Lemma all_params_wf s x ps : parse_tokens fo s = Done (Ok x) -> all_params x ps -> wf_params ps.
Proof.
  intros H [(d & Hd & Hp)|(d & Hd & Hp)].
  - pose proof (proj1 (Forall_forall _ _) (pre_written _ _ H) d Hd) as (a & t & u & _ & Hw).
    destruct Hw as [p r0|p id fl d0 s0 r0 Hk Hi Hr|p id mkP q w r0 Hk|p q w r0|p id mkP q ty s0 l r0 Hk Hps]; try discriminate;
      try (destruct Hk; discriminate).
    assert (ps = collect l) as -> by (destruct Hk; cbn in Hp; congruence). apply collect_wf. eapply params_good; eauto.
  - pose proof (proj1 (Forall_forall _ _) (params_written _ _ H) d Hd) as Hw.
    destruct Hw as [a p id mkD q ty b l r Hk E Hps|a p id mkB b ch Hk E|a p q path b E|a p q1 name q2 ty q3 class b l r E Hps].
    + assert (ps = collect l) as -> by (destruct Hk; cbn in Hp; congruence). apply collect_wf. eapply params_good; eauto.
    + destruct Hk; discriminate.
    + discriminate.
    + cbn in Hp. injection Hp as <-. apply collect_wf. eapply params_good; eauto.
Qed.

(** ** C22 *)
Lemma trace_sorted s x : parse_tokens fo s = Done (Ok x) -> 
  exists ls ls', Forall2 pre_trace (fst x) ls /\ Forall2 dir_trace (nodes (snd x)) ls' /\
      subseq (concat ls ++ concat ls') (map tok_pos s).
Proof. intros H. now destruct (ok_shape _ _ H) as (a & p & mid & t & rest & [E C N P W Ed Nd R Wr T]). Qed.

(** ** C21, C23 *)
Lemma dir_head_inv s0 b d r : dir_head s0 b -> directive fo s0 d r -> exists l, params fo b l r.
Proof.
  intros H Hd. destruct H as [p id mkD q ty s Hk|p q1 name q2 ty q3 class s].
  - inversion Hd as [? ? ? ? ? ? ? ? Hk' Hp|? ? ? ? ? ? Hk' Hd'|? ? ? ? E|? ? ? ? ? ? ? ? ? ? Hp]; subst; eauto;
    inversion Hk; subst; try inversion Hk'.
  - inversion Hd as [? ? ? ? ? ? ? ? Hk' Hp|? ? ? ? ? ? Hk' Hd'|? ? ? ? E|? ? ? ? ? ? ? ? ? ? Hp]; subst; eauto; inversion Hk'.
Qed.
Lemma pre_head_inv s0 b d r : pre_head s0 b -> predirective fo s0 d r -> exists l, params fo b l r.
Proof.
  intros [p id mkD q ty s Hk] Hd.
  inversion Hd as [? ?|? ? fl ? ? ? Hk' Hi Hr|? ? ? ? ? ? Hk'|? ? ? ?|? ? ? ? ? ? l ? Hk' Hp]; subst; eauto;
    inversion Hk; subst; try inversion Hk'.
Qed.
Lemma push_inj (i i' : pitem (F := F)) : push ps_empty i = push ps_empty i' -> i = i'.
Proof.
  destruct i as [n q v], i' as [n' q' v']. destruct v, v'; cbn; intros E; try discriminate; injection E; intros; subst; reflexivity.
Qed.
Lemma param_det (s : toks) i r i' r' : param fo s i r -> param fo s i' r' -> i = i' /\ r = r'.
Proof.
  intros H H'. destruct (runs_det _ _ _ _ _ _ (param_ok fo _ _ _ H ps_empty) (param_ok fo _ _ _ H' ps_empty)) as [E ->].
  split; [|reflexivity]. apply push_inj. congruence.
Qed.
Lemma param_not_dropped (s : toks) i r r' : param fo s i r -> dropped fo s r' -> False.
Proof.
  intros H H'. apply dropped_param_fail in H'. destruct (param_err fo _ _ H') as [m H2].
  destruct (runs_det _ _ _ _ _ _ (param_ok fo _ _ _ H ps_empty) (H2 ps_empty)) as [E _]. discriminate.
Qed.
Lemma param_not_quiet (s : toks) i r : param fo s i r -> quiet s -> False.
Proof. now intros []. Qed.
Lemma params_skip b l0 s1 : some_params fo b l0 s1 -> forall l r, params fo b l r -> exists l1, l = l0 ++ l1 /\ params fo s1 l1 r.
Proof.
  induction 1 as [s|s i s' l0 s1 Hp H IH]; intros l r Hl; [exists l; auto|].
  inversion Hl as [? Hq|? ? Hd|? i2 s2 l2 ? Hp2 Hl2]; subst.
  - exfalso. eapply param_not_quiet; eauto.
  - exfalso. eapply param_not_dropped; eauto.
  - destruct (param_det _ _ _ _ _ Hp Hp2) as [<- <-]. destruct (IH _ _ Hl2) as (l1 & -> & H1). exists l1. auto.
Qed.
Lemma at_param_next s s1 x : at_param fo s s1 -> parse_tokens fo s = Done (Ok x) -> exists l r, params fo s1 l r.
Proof.
  intros H E. apply parse_tokens_iff in E. destruct H as [s0 b l s1 Hr Hh Hs|ds s0 b l s1 Hr Hh Hs].
  - destruct (reaches_directives fo _ _ Hr _ E) as (ds & r & Hd). inversion Hd as [p id s2 Hc|s2 d s3 ds0 r0 Hd0 Hds]; subst.
    + destruct (is_closer_In id) as [_ Hi]. inversion Hh as [? ? ? ? ? ? Hk|]; subst.
      * exfalso. apply (struct_not_closer id mkD p Hk). exists id. auto.
      * exfalso. cbn in Hc. decompose [or] Hc; try contradiction; discriminate.
    + destruct (dir_head_inv _ _ _ _ Hh Hd0) as (l2 & Hp). destruct (params_skip _ _ _ Hs _ _ Hp) as (l1 & _ & H1). eauto.
  - destruct (pre_reaches_predirectives fo _ _ _ Hr _ E) as (pres & r & _ & Hd). inversion Hd as [p s2|s2 d s3 ds0 r0 Hd0 Hds]; subst.
    + inversion Hh as [? ? ? ? ? ? Hk]; subst; inversion Hk.
    + destruct (pre_head_inv _ _ _ _ Hh Hd0) as (l2 & Hp). destruct (params_skip _ _ _ Hs _ _ Hp) as (l1 & _ & H1). eauto.
Qed.
Lemma malformed_dropped s s1 x : at_param fo s s1 -> ~ quiet s1 -> (forall i r, ~ param fo s1 i r) ->
  parse_tokens fo s = Done (Ok x) -> exists r, dropped fo s1 r.
Proof.
  intros H Hq Hn E. destruct (at_param_next _ _ _ H E) as (l & r & Hp). inversion Hp; subst; [contradiction|eauto|].
  exfalso. eapply Hn; eauto.
Qed.
Lemma params_app b l0 s1 l1 r : some_params fo b l0 s1 -> params fo s1 l1 r -> params fo b (l0 ++ l1) r.
Proof. induction 1 as [s|s i s' l0 s1 Hp H IH]; intros Hl; [assumption|]. cbn. eapply ps_cons; eauto. Qed.
Lemma head_directive s0 b l r : dir_head s0 b -> params fo b l r -> exists d, directive fo s0 d r /\ dir_params d = Some (collect l).
Proof.
  intros [p id mkD q ty s Hk|p q1 name q2 ty q3 class s] Hp.
  - eexists. split; [econstructor; eauto|]. now destruct Hk.
  - eexists. split; [apply di_texture; eauto|]. reflexivity.
Qed.
Lemma head_predirective s0 b l r : pre_head s0 b -> params fo b l r -> exists d, predirective fo s0 d r /\ pre_params d = Some (collect l).
Proof.
  intros [p id mkD q ty s Hk] Hp. eexists. split; [eapply pd_struct; eauto|]. now destruct Hk.
Qed.
Lemma dropped_goes_on s s0 b l s1 r : reaches fo s s0 -> dir_head s0 b -> some_params fo b l s1 -> dropped fo s1 r ->
  exists d, directive fo s0 d r /\ dir_params d = Some (collect l) /\ reaches fo s r.
Proof.
  intros Hr Hh Hs Hd. destruct (head_directive s0 b (l ++ []) r Hh) as (d & H1 & H2).
  { eapply params_app; [exact Hs|]. now apply ps_drop. }
  rewrite app_nil_r in H2. exists d. split; [assumption|]. split; [assumption|]. eapply re_next; eauto.
Qed.
Lemma dropped_goes_on_pre s ds s0 b l s1 r : pre_reaches fo s ds s0 -> pre_head s0 b -> some_params fo b l s1 -> dropped fo s1 r ->
  exists d, predirective fo s0 d r /\ pre_params d = Some (collect l) /\ pre_reaches fo s (ds ++ [d]) r.
Proof.
  intros Hr Hh Hs Hd. destruct (head_predirective s0 b (l ++ []) r Hh) as (d & H1 & H2).
  { eapply params_app; [exact Hs|]. now apply ps_drop. }
  rewrite app_nil_r in H2. exists d. split; [assumption|]. split; [assumption|]. eapply pr_next; eauto.
Qed.
Lemma unknown_type s p h r : at_param fo s (mkTok p (TStr h) :: r) -> (forall ty name, header h ty name -> ~ known ty) ->
  exists e, parse_tokens fo s = Done (Err e).
Proof.
  intros H Hu. destruct (parse_tokens_no_panic fo s) as [[x|e] E]; [|eauto]. exfalso.
  destruct (at_param_next _ _ _ H E) as (l & r' & Hp). inversion Hp as [? Hq|? ? Hd|? i s' l' ? Hi Hl]; subst.
  - contradiction.
  - inversion Hd as [? ? ty name ? Hh Hk|? ? ? ty name ? Hh Hk|? ? ? ty name ? ? Hh Ho|? ? name ? ? ? Hh]; subst; try (eapply Hu; eassumption).
    + eapply Hu; [eassumption|]. destruct Ho; unfold known; cbn; tauto.
    + eapply Hu; [eassumption|]. unfold known; cbn; tauto.
  - inversion Hi as [? ? ty name ? ? ? Hh Hv]; subst. eapply Hu; [eassumption|]. eapply value_known; eauto.
Qed.
(** Well-formed parameters are all kept. *)
Lemma wellformed_kept s s0 b l r : reaches fo s s0 -> dir_head s0 b -> some_params fo b l r -> quiet r ->
  exists d, directive fo s0 d r /\ dir_params d = Some (collect l) /\ reaches fo s r.
Proof.
  intros Hr Hh Hs Hq. destruct (head_directive s0 b (l ++ []) r Hh) as (d & H1 & H2).
  { eapply params_app; [exact Hs|]. now apply ps_end. }
  rewrite app_nil_r in H2. exists d. split; [assumption|]. split; [assumption|]. eapply re_next; eauto.
Qed.
Lemma wellformed_kept_pre s ds s0 b l r : pre_reaches fo s ds s0 -> pre_head s0 b -> some_params fo b l r -> quiet r ->
  exists d, predirective fo s0 d r /\ pre_params d = Some (collect l) /\ pre_reaches fo s (ds ++ [d]) r.
Proof.
  intros Hr Hh Hs Hq. destruct (head_predirective s0 b (l ++ []) r Hh) as (d & H1 & H2).
  { eapply params_app; [exact Hs|]. now apply ps_end. }
  rewrite app_nil_r in H2. exists d. split; [assumption|]. split; [assumption|]. eapply pr_next; eauto.
Qed.
(** What is read at a reached place is part of every result. *)
Lemma directives_in_nodes s0 d r0 ds r : directive fo s0 d r0 -> directives fo s0 ds r -> In d ds.
Proof. intros Hd H. destruct (directives_cons_inv fo _ _ _ _ _ Hd H) as (ds' & -> & _). now left. Qed.
Lemma reaches_nodes s s1 : reaches fo s s1 -> forall x, scene fo s x ->
  exists ds r, directives fo s1 ds r /\ forall d, In d (flat_map nodes ds) -> In d (nodes (snd x)).
Proof.
  induction 1 as [pres p s' Hp|p id mkB s' Hk H IH|s1 d s2 H IH Hd]; intros x Hx.
  - destruct Hx as [s0 pres' s1 w r Hp' Hd]. destruct (predirectives_det fo _ _ _ _ _ Hp Hp') as [_ <-].
    destruct (world_inv fo _ _ _ _ Hd) as (ds & -> & Hds). exists ds, r. split; [assumption|]. intros d Hi. cbn. now right.
  - destruct (IH _ Hx) as (ds & r & Hds & Hin). inversion Hds as [p0 id0 s0 Hc|s0 d s1 ds0 r0 Hd Hds0]; subst.
    + elim (block_not_closer id mkB p Hk). exists id. auto.
    + inversion Hd as [? ? ? ? ? ? ? ? Hk'|? ? mkB' ? ds' ? Hk' Hd'| |]; subst; try (inversion Hk; subst; inversion Hk'; fail);
        try (inversion Hk; fail).
      exists ds', s1. split; [assumption|]. intros d Hi. apply Hin. cbn. apply in_or_app. left.
      destruct (block_obs id mkB' p ds' Hk') as (On & _). rewrite On. now right.
  - destruct (IH _ Hx) as (ds & r & Hds & Hin). destruct (directives_cons_inv fo _ _ _ _ _ Hd Hds) as (ds' & -> & H').
    exists ds', r. split; [assumption|]. intros d' Hi. apply Hin. cbn. apply in_or_app. now right.
Qed.
Lemma reached_in_result s s0 d r x : reaches fo s s0 -> directive fo s0 d r -> parse_tokens fo s = Done (Ok x) ->
  In d (nodes (snd x)).
Proof.
  intros H Hd E. apply parse_tokens_iff in E. destruct (reaches_nodes _ _ H _ E) as (ds & r' & Hds & Hin). apply Hin.
  pose proof (directives_in_nodes _ _ _ _ _ Hd Hds) as Hi. apply in_flat_map. exists d. split; [assumption|]. destruct d; now left.
Qed.

(** ** C25 *)
Lemma ext_snoc (s r : toks) : quiet r -> ext s (s ++ r).
Proof. intros Hq. destruct s as [|t s]; [right; left; auto|left; exists t, s, (s ++ r); auto]. Qed.
Definition we_tok (p : Pos) : Token F := mkTok p (TIdent (s2l "WorldEnd")).
Lemma we_closes p : directives fo [we_tok p] [] [we_tok p].
Proof. apply ds_close. cbn. tauto. Qed.
Lemma dir_eof_closes p s : dir_eof fo s -> exists d, directive fo (s ++ [we_tok p]) d [we_tok p].
Proof.
  apply (dir_eof_mut F fo (fun s => exists d, directive fo (s ++ [we_tok p]) d [we_tok p])
                          (fun s => exists ds, directives fo (s ++ [we_tok p]) ds [we_tok p])).
  - intros q id mkB s0 Hk _ (ds & IH). eexists. cbn [app]. econstructor; eauto.
  - exists []. apply we_closes.
  - intros s0 _ (d & IH). exists [d]. econstructor; [exact IH|apply we_closes].
  - intros s0 d s' Hd _ (ds & IH). exists (d :: ds). destruct (directive_frame fo _ _ _ Hd) as (c & Hc).
    pose proof (df_split _ _ _ _ _ _ Hc) as ->. rewrite <- app_assoc. econstructor; [|exact IH].
    apply (df_ext _ _ _ _ _ _ Hc). apply ext_snoc. exact I.
Qed.
Lemma predirective_snoc (s r : toks) d t : predirective fo s d r -> quiet t -> predirective fo (s ++ t) d (r ++ t).
Proof.
  intros H Hq. destruct (predirective_frame fo _ _ _ H) as (c & Hc). pose proof (pf_split _ _ _ _ _ Hc) as ->.
  rewrite <- app_assoc. apply (pf_ext _ _ _ _ _ Hc). now apply ext_snoc.
Qed.
Lemma predirectives_snoc (s r : toks) ds t : predirectives fo s ds r -> predirectives fo (s ++ t) ds (r ++ t).
Proof.
  intros H. destruct (predirectives_frame fo _ _ _ H) as (c & Hc). pose proof (pf_split _ _ _ _ _ Hc) as ->.
  rewrite <- app_assoc. apply (pf_ext _ _ _ _ _ Hc). destruct (predirectives_world fo _ _ _ H) as (p & s' & ->).
  left. do 3 eexists. split; reflexivity.
Qed.
Lemma eof_completable s : parse_tokens fo s = Done (Err EEof) ->
  exists x, parse_tokens fo (s ++ [we_tok pos0]) = Done (Ok x) \/
            parse_tokens fo (s ++ [wb_tok pos0; we_tok pos0]) = Done (Ok x).
Proof.
  intros H. apply parse_tokens_eof_iff in H. destruct H as [s H|s pres s' Hp Hd].
  - assert (X : exists ds, predirectives fo (s ++ [wb_tok pos0; we_tok pos0]) ds [wb_tok pos0; we_tok pos0]).
    { induction H as [|s d s' Hd H (ds & IH)]; [exists []; constructor|]. exists (d :: ds).
      econstructor; [|exact IH]. apply predirective_snoc; [assumption|exact I]. }
    destruct X as (ds & X). exists (ds, DWorld pos0 []). right. apply parse_tokens_iff. econstructor; [exact X|].
    apply (di_block fo pos0 _ DWorld); [constructor|apply we_closes].
  - destruct (dir_eof_closes pos0 _ Hd) as (w & Hw). exists (pres, w). left. apply parse_tokens_iff.
    econstructor; [|exact Hw]. now apply predirectives_snoc.
Qed.
End S.

(** ** C07, C22 on texts *)
Section T.
Context {F : Type} (fo : FloatOps F) (cc : CharClass) (Hcc : cc_ok cc).

Lemma texts_same_kinds chk i1 i2 t1 t2 : tokenize fo cc chk i1 = Done (Ok t1) -> tokenize fo cc chk i2 = Done (Ok t2) ->
  kinds t1 = kinds t2 -> same_outcome (parse fo cc chk i1) (parse fo cc chk i2).
Proof. intros H1 H2 E. unfold parse. rewrite H1, H2. now apply kinds_parse. Qed.

Lemma lexes_kinds chk p s t : lexes fo cc chk p s t -> forall p', exists t', lexes fo cc chk p' s t' /\ kinds t' = kinds t.
Proof.
  induction 1 as [pre|pre c s toks Hw H IH|pre body s toks Hb H IH|pre body Hb|pre text ty s toks Hx H IH]; intros p'.
  - exists []. split; [constructor|reflexivity].
  - destruct (IH (p' ++ [c])) as (t' & H1 & H2). exists t'. split; [now constructor|assumption].
  - destruct (IH (p' ++ c_hash :: body ++ [c_lf])) as (t' & H1 & H2). exists t'. split; [now constructor|assumption].
  - exists []. split; [now constructor|reflexivity].
  - destruct (IH (p' ++ text)) as (t' & H1 & H2). exists (mkTok (pos_of p') ty :: t'). split; [now constructor|]. unfold kinds in *. cbn. now rewrite H2.
Qed.
Lemma lexes_layout chk w : layout w -> forall p b t, lexes fo cc chk p (w ++ b) t <-> lexes fo cc chk (p ++ w) b t.
Proof.
  induction 1 as [|c w Hc H IH|body w Hb H IH]; intros p b t.
  - cbn. now rewrite app_nil_r.
  - cbn [app]. rewrite lexes_ws by assumption. rewrite IH. now rewrite <- app_assoc.
  - cbn [app]. rewrite <- app_assoc. cbn [app]. rewrite lexes_comment by assumption. rewrite IH.
    rewrite <- app_assoc. cbn [app]. now rewrite <- app_assoc.
Qed.
Lemma overflows_layout w : layout w -> forall b, lex_overflows fo cc (w ++ b) <-> lex_overflows fo cc b.
Proof.
  induction 1 as [|c w Hc H IH|body w Hb H IH]; intros b.
  - reflexivity.
  - cbn [app]. rewrite overflows_ws by assumption. apply IH.
  - cbn [app]. rewrite <- app_assoc. cbn [app]. rewrite overflows_comment by assumption. apply IH.
Qed.

Lemma layout_between chk a ta b tb tab c w : ~ In c_cr (a ++ c :: w ++ b) -> is_whitespace c = true -> layout w ->
  tokenize fo cc chk a = Done (Ok ta) -> tokenize fo cc chk b = Done (Ok tb) -> tokenize fo cc chk (a ++ b) = Done (Ok tab) ->
  kinds tab = kinds ta ++ kinds tb -> c = c_lf \/ no_open_comment a ->
  same_outcome (parse fo cc chk (a ++ c :: w ++ b)) (parse fo cc chk (a ++ b)).
Proof.
  intros Hcr Hc Hw Ha Hb Hab Hk Ho.
  assert (Hcra : ~ In c_cr a) by (intros Hi; apply Hcr; rewrite in_app_iff; tauto).
  assert (Hcrb : ~ In c_cr b) by (intros Hi; apply Hcr; rewrite in_app_iff; cbn; rewrite in_app_iff; tauto).
  pose proof Ha as La. rewrite tokenize_ok_iff in La by assumption. rewrite (replace_crlf_id a Hcra) in La.
  pose proof Hb as Lb. rewrite tokenize_ok_iff in Lb by assumption. rewrite (replace_crlf_id b Hcrb) in Lb.
  destruct (lexes_kinds _ _ _ _ Lb ((([] ++ a) ++ [c]) ++ w)) as (tb' & H1 & H2).
  apply (texts_same_kinds chk _ _ (ta ++ tb') tab); [|assumption|rewrite Hk; unfold kinds in *; now rewrite map_app, H2].
  rewrite tokenize_ok_iff by assumption. rewrite (replace_crlf_id _ Hcr). rewrite (lexes_app fo cc Hcc _ _ _ _ La) by assumption.
  exists tb'. split; [reflexivity|]. rewrite lexes_ws by assumption. now rewrite lexes_layout.
Qed.
Lemma layout_inserted chk a ta c w b : ~ In c_cr (a ++ c :: w ++ b) -> is_whitespace c = true -> layout w ->
  tokenize fo cc chk a = Done (Ok ta) -> c = c_lf \/ no_open_comment a ->
  same_outcome (parse fo cc chk (a ++ c :: w ++ b)) (parse fo cc chk (a ++ c :: b)).
Proof.
  intros Hcr Hc Hw Ha Ho.
  assert (Hcr2 : ~ In c_cr (a ++ c :: b)).
  { intros Hi. apply Hcr. rewrite in_app_iff in *. cbn in *. rewrite in_app_iff. tauto. }
  assert (Hcr3 : ~ In c_cr a) by (intros Hi; apply Hcr; rewrite in_app_iff; tauto).
  pose proof Ha as La. rewrite tokenize_ok_iff in La by assumption. rewrite (replace_crlf_id a Hcr3) in La.
  assert (Hok : forall t, tokenize fo cc chk (a ++ c :: w ++ b) = Done (Ok t) ->
            exists t', tokenize fo cc chk (a ++ c :: b) = Done (Ok t') /\ kinds t' = kinds t).
  { intros t H. rewrite tokenize_ok_iff in H by assumption. rewrite (replace_crlf_id _ Hcr) in H.
    rewrite (lexes_app fo cc Hcc _ _ _ _ La) in H by assumption. destruct H as (tb & -> & H).
    rewrite lexes_ws in H by assumption. rewrite lexes_layout in H by assumption.
    destruct (lexes_kinds _ _ _ _ H (([] ++ a) ++ [c])) as (tb' & H1 & H2).
    exists (ta ++ tb'). split; [|unfold kinds in *; now rewrite !map_app, H2].
    rewrite tokenize_ok_iff by assumption. rewrite (replace_crlf_id _ Hcr2).
    rewrite (lexes_app fo cc Hcc _ _ _ _ La) by assumption. exists tb'. split; [reflexivity|]. now rewrite lexes_ws. }
  assert (Hok2 : forall t, tokenize fo cc chk (a ++ c :: b) = Done (Ok t) ->
            exists t', tokenize fo cc chk (a ++ c :: w ++ b) = Done (Ok t')).
  { intros t H. rewrite tokenize_ok_iff in H by assumption. rewrite (replace_crlf_id _ Hcr2) in H.
    rewrite (lexes_app fo cc Hcc _ _ _ _ La) in H by assumption. destruct H as (tb & -> & H).
    rewrite lexes_ws in H by assumption.
    destruct (lexes_kinds _ _ _ _ H ((([] ++ a) ++ [c]) ++ w)) as (tb' & H1 & H2).
    exists (ta ++ tb'). rewrite tokenize_ok_iff by assumption. rewrite (replace_crlf_id _ Hcr).
    rewrite (lexes_app fo cc Hcc _ _ _ _ La) by assumption. exists tb'. split; [reflexivity|].
    rewrite lexes_ws by assumption. now rewrite lexes_layout. }
  assert (Hp : tokenize fo cc chk (a ++ c :: w ++ b) = Panic <-> tokenize fo cc chk (a ++ c :: b) = Panic).
  { rewrite !tokenize_panic_iff by assumption. rewrite (replace_crlf_id _ Hcr), (replace_crlf_id _ Hcr2).
    split; intros [-> H]; (split; [reflexivity|]); revert H;
      rewrite !(overflows_app fo cc Hcc _ _ _ La) by assumption; rewrite !overflows_ws by assumption;
      now rewrite overflows_layout by assumption. }
  destruct (tokenize fo cc chk (a ++ c :: w ++ b)) as [[t|[m|]]| |] eqn:E.
  - destruct (Hok _ eq_refl) as (t' & E' & Hk). eapply texts_same_kinds; eauto.
  - assert (X : exists m', tokenize fo cc chk (a ++ c :: b) = Done (Err (EStr m'))).
    { apply tokenize_err_iff; [assumption|]. split.
      - intros t H. destruct (Hok2 _ H) as (t' & H'). discriminate.
      - intros H. apply Hp in H. discriminate. }
    destruct X as (m' & X). unfold parse. rewrite E, X. exact I.
  - now elim (tokenize_err_not_eof fo cc Hcc chk (a ++ c :: w ++ b)).
  - destruct Hp as [Hp _]. specialize (Hp eq_refl). unfold parse. rewrite E, Hp. exact I.
  - now elim (tokenize_no_fuel fo cc Hcc chk (a ++ c :: w ++ b)).
Qed.

Lemma text_positions chk input x : parse fo cc chk input = Done (Ok x) ->
  exists toks, tokenize fo cc chk input = Done (Ok toks) /\
  exists ls ls', Forall2 pre_trace (fst x) ls /\ Forall2 dir_trace (nodes (snd x)) ls' /\
    subseq (concat ls ++ concat ls') (map tok_pos toks) /\ StronglySorted pos_lt (concat ls ++ concat ls').
Proof.
  unfold parse. destruct (tokenize fo cc chk input) as [[toks|e]| |] eqn:E; try discriminate.
  intros H. exists toks. split; [reflexivity|]. destruct (trace_sorted fo _ _ H) as (ls & ls' & H1 & H2 & H3).
  exists ls, ls'. repeat split; try assumption. eapply subseq_sorted; [exact H3|].
  apply (tokenize_positions fo cc Hcc _ _ _ E).
Qed.
End T.
