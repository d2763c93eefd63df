(** Proofs for C122. *)
From Coq Require Import Sorted Permutation.
From Verif Require Import Base TokModel ParModel LexSpec SceneSpec SceneObs TokProofs ParProofs DirProofs LexProofs LexThms SceneThms ReorderSpec ReorderProofs RememberSpec.

Section Remember.
Context {F : Type} (fo : FloatOps F).
Notation toks := (list (Token F)).

Lemma block_alone id mkB : block_kw (F := F) id mkB -> In id takes_nothing.
Proof. intros []; cbn; tauto. Qed.
Lemma numbers_takes_n id p fl d : numbers_kw (F := F) id p fl d -> In (id, length fl) takes_numbers.
Proof. intros []; cbn; tauto. Qed.
Lemma pstr_takes_string id mkP : pstr_kw (F := F) id mkP -> In id takes_string.
Proof. intros []; cbn; tauto. Qed.
Lemma statements_end (s : toks) l r : statements fo s l r -> exists p id u, r = mkTok p (TIdent id) :: u /\ In id closers.
Proof. induction 1; eauto. Qed.
Lemma directives_at_closer p id (s : toks) ds r : In id closers -> directives fo (mkTok p (TIdent id) :: s) ds r -> ds = [] /\ r = mkTok p (TIdent id) :: s.
Proof.
  intros Hc H. inversion H as [|? ? ? ? ? Hd]; subst; [auto|]. exfalso.
  assert (C : is_closer_tok (mkTok (F := F) p (TIdent id))) by (exists id; auto).
  inversion Hd as [? ? ? ? ? ? ? ? K|? ? ? ? ? ? K| |]; subst.
  - exact (struct_not_closer _ _ _ K C).
  - exact (block_not_closer _ _ _ K C).
  - cbn in Hc. repeat destruct Hc as [Hc|Hc]; try discriminate Hc; exact Hc.
  - cbn in Hc. repeat destruct Hc as [Hc|Hc]; try discriminate Hc; exact Hc.
Qed.

Lemma to_both :
  (forall s d r, directive fo s d r -> (exists st, statement fo s st r /\ forall l ds, world_of l ds -> world_of (st :: l) (d :: ds)) \/
     exists l, statements fo s l r /\ world_of l [d]) /\
  (forall s ds r, directives fo s ds r -> exists l, statements fo s l r /\ world_of l ds).
Proof.
  apply dir_both.
  - intros p id mkD q ty s l r K Hp. left. exists (SParams p id [ty] l). split.
    + apply (st_params fo p id [mkTok q (TStr ty)] [ty]); [exact (struct_takes _ _ K)|reflexivity|exact Hp].
    + intros. now apply wo_struct.
  - intros p id mkB s ds r K _ (l & Hs & Hw). right. exists (SAlone p id :: l). split.
    + eapply ss_more; [apply st_alone; eapply block_alone; eauto|exact Hs].
    + now apply wo_block.
  - intros p q w r. left. exists (SString p (s2l "Include") w). split; [apply st_string; cbn; tauto|intros; now apply wo_include].
  - intros p q1 name q2 ty q3 class s l r Hp. left. exists (SParams p (s2l "Texture") [name; ty; class] l). split.
    + apply (st_params fo p (s2l "Texture") [mkTok q1 (TStr name); mkTok q2 (TStr ty); mkTok q3 (TStr class)]); [cbn; tauto|reflexivity|exact Hp].
    + intros. now apply wo_texture.
  - intros p id s Hc. exists []. split; [now apply ss_close|constructor].
  - intros s d s' ds r Hd IHd Hds (l & Hs & Hw). destruct IHd as [(st & Hst & G)|(l0 & H0 & W0)].
    + exists (st :: l). split; [eapply ss_more; eauto|auto].
    + destruct (statements_end _ _ _ H0) as (p & id & u & -> & Hc). destruct (directives_at_closer _ _ _ _ _ Hc Hds) as [-> ->]. eauto.
Qed.
Lemma takes_one_inj (h : toks) ws w : map tok_ty h = map TStr ws -> ws = [w] -> exists q, h = [mkTok q (TStr w)].
Proof. intros E ->. destruct h as [|[q t] [|]]; try discriminate E. injection E as ->. eauto. Qed.
Lemma takes_three_inj (h : toks) a b c : map tok_ty h = map TStr [a; b; c] -> exists p q r, h = [mkTok p (TStr a); mkTok q (TStr b); mkTok r (TStr c)].
Proof. intros E. destruct h as [|[q t] [|[q1 t1] [|[q2 t2] [|]]]]; try discriminate E. injection E as -> -> ->. eauto. Qed.
Lemma from_world s l r : statements fo s l r -> forall ds, world_of l ds -> directives fo s ds r.
Proof.
  induction 1 as [p id r Hc|s st s' l r Hst Hs IH]; intros ds Hw; inversion Hw; subst.
  - now constructor.
  - inversion Hst; subst. destruct (statements_end _ _ _ Hs) as (p0 & id0 & u & -> & Hc).
    eapply ds_cons; [apply di_block; eauto|now apply ds_close].
  - inversion Hst; subst. match goal with E : map tok_ty _ = map TStr _ |- _ => destruct (takes_one_inj _ _ _ E eq_refl) as (q & ->) end.
    eapply ds_cons; [apply di_struct; eauto|auto].
  - inversion Hst; subst. match goal with E : map tok_ty _ = map TStr _ |- _ => destruct (takes_three_inj _ _ _ _ E) as (q & q1 & q2 & ->) end.
    eapply ds_cons; [apply di_texture; eauto|auto].
  - inversion Hst; subst. eapply ds_cons; [apply di_include|auto].
Qed.

Lemma to_pre s d r : predirective fo s d r -> exists st, statement fo s st r /\ pre_of st d.
Proof.
  intros [p r0|p id fl d0 s0 r0 K Hi Hn|p id mkP q w r0 K|p q w r0|p id mkP q ty s0 l r0 K Hp].
  - eexists. split; [apply st_alone; cbn; tauto|constructor].
  - eexists. split; [apply st_numbers; eauto; eapply numbers_takes_n; eauto|now constructor].
  - eexists. split; [apply st_string; eapply pstr_takes_string; eauto|now constructor].
  - eexists. split; [apply st_word; cbn; tauto|constructor].
  - eexists. split; [apply (st_params fo p id [mkTok q (TStr ty)] [ty]); [exact (pstruct_takes _ _ K)|reflexivity|exact Hp]|now constructor].
Qed.
Lemma from_pre s st r d : statement fo s st r -> pre_of st d -> predirective fo s d r.
Proof.
  intros Hst Hp. inversion Hp; subst; inversion Hst; subst.
  - constructor.
  - eapply pd_numbers; eauto.
  - now constructor.
  - constructor.
  - match goal with E : map tok_ty _ = map TStr _ |- _ => destruct (takes_one_inj _ _ _ E eq_refl) as (q & ->) end. cbn. now constructor.
Qed.
(** The scenes of a token list are those of its statements. *)
Lemma scene_statements s x : scene fo s x <-> exists l r, statements fo s l r /\ scene_of l x.
Proof.
  split.
  - intros [s0 pres s' w r Hp Hd]. induction Hp as [p s0|s0 d s' ds r' Hpre Hp IH].
    + destruct (world_inv fo _ _ _ _ Hd) as (ds & -> & Hds). destruct (proj2 to_both _ _ _ Hds) as (l & Hs & Hw).
      exists (SAlone p (s2l "WorldBegin") :: l), r. split; [|now constructor]. eapply ss_more; [apply st_alone; cbn; tauto|exact Hs].
    + destruct (IH Hd) as (l & r2 & Hs & Hw). destruct (to_pre _ _ _ Hpre) as (st & Hst & Hq).
      exists (st :: l), r2. split; [eapply ss_more; eauto|now constructor].
  - intros (l & r & Hs & Hx). revert x Hx. induction Hs as [p id r Hc|s st s' l r Hst Hs IH]; intros x Hx; inversion Hx; subst.
    + inversion Hst; subst. eapply sc; [apply pds_world|]. apply di_block; [constructor|]. eapply from_world; eauto.
    + match goal with H : scene_of _ _ |- _ => pose proof (IH _ H) as Hsc end. inversion Hsc; subst.
      eapply sc; [eapply pds_cons; [eapply from_pre; eauto|eauto]|eauto].
Qed.

(** The same scene, the same statements. *)
Lemma struct_inj id mkD id' mkD' a b : struct_kw (F := F) id mkD -> struct_kw id' mkD' -> mkD a = mkD' b -> id = id' /\ a = b.
Proof. intros [] []; intros E; try discriminate E; injection E as ->; auto. Qed.
Lemma block_inj id mkB id' mkB' p q a b : block_kw (F := F) id mkB -> block_kw id' mkB' -> mkB p a = mkB' q b -> id = id' /\ p = q /\ a = b.
Proof. intros [] []; intros E; try discriminate E; injection E as -> ->; auto. Qed.
Lemma pstruct_inj id mkD id' mkD' a b : pstruct_kw (F := F) id mkD -> pstruct_kw id' mkD' -> mkD a = mkD' b -> id = id' /\ a = b.
Proof. intros [] []; intros E; try discriminate E; injection E as ->; auto. Qed.
Lemma pstr_inj id mkD id' mkD' p q a b : pstr_kw (F := F) id mkD -> pstr_kw id' mkD' -> mkD p a = mkD' q b -> id = id' /\ p = q /\ a = b.
Proof. intros [] []; intros E; try discriminate E; injection E as -> ->; auto. Qed.
Lemma numbers_inj id p fl id' p' fl' d : numbers_kw (F := F) id p fl d -> numbers_kw id' p' fl' d -> id = id' /\ p = p' /\ fl = fl'.
Proof. intros [] H; inversion H; subst; auto. Qed.
Lemma mkDS_inj (ty ty' : str) (p p' : Pos) (c c' : ParamSet F) : mkDS ty p c = mkDS ty' p' c' -> ty = ty' /\ p = p' /\ c = c'.
Proof. injection 1. auto. Qed.
Lemma mkTS_inj (a a' b b' c c' : str) (p p' : Pos) (d d' : ParamSet F) : mkTS a b c p d = mkTS a' b' c' p' d' -> a = a' /\ b = b' /\ c = c' /\ p = p' /\ d = d'.
Proof. injection 1. auto 10. Qed.
(** The first directive and the statement it comes from. *)
Inductive first_of : stmt -> Directive F -> Prop :=
| fo_block p id mkB ds : block_kw id mkB -> first_of (SAlone p id) (mkB p ds)
| fo_struct p id mkD ty ps : struct_kw id mkD -> first_of (SParams p id [ty] ps) (mkD (mkDS ty p (collect ps)))
| fo_texture p name ty class ps : first_of (SParams p (s2l "Texture") [name; ty; class] ps) (DTexture (mkTS name ty class p (collect ps)))
| fo_include p w : first_of (SString p (s2l "Include") w) (DInclude p w).
Lemma first_inj st d : first_of st d -> forall st', first_of st' d -> same_stmt st st'.
Proof.
  intros H st' H'. destruct H as [p id mkB ds K|p id mkD ty ps K|p name ty class ps|p w].
  - inversion H' as [p' id' mkB' ds' K' E1 E|p' id' mkD' ty' ps' K' E1 E|p' n' ty' c' ps' E1 E|p' w' E1 E].
    + destruct (block_inj _ _ _ _ _ _ _ _ K' K E) as (-> & -> & _). constructor.
    + exfalso. destruct K, K'; discriminate E.
    + exfalso. destruct K; discriminate E.
    + exfalso. destruct K; discriminate E.
  - inversion H' as [p' id' mkB' ds' K' E1 E|p' id' mkD' ty' ps' K' E1 E|p' n' ty' c' ps' E1 E|p' w' E1 E].
    + exfalso. destruct K, K'; discriminate E.
    + destruct (struct_inj _ _ _ _ _ _ K' K E) as (-> & Eds). destruct (mkDS_inj _ _ _ _ _ _ Eds) as (-> & -> & Ec). apply sm_params, collect_iff. now symmetry.
    + exfalso. destruct K; discriminate E.
    + exfalso. destruct K; discriminate E.
  - remember (DTexture (mkTS name ty class p (collect ps))) as d eqn:E.
    destruct H' as [p' id' mkB' ds' K'|p' id' mkD' ty' ps' K'|p' n' ty' c' ps'|p' w'].
    + exfalso. destruct K'; discriminate E.
    + exfalso. destruct K'; discriminate E.
    + assert (X : mkTS n' ty' c' p' (collect ps') = mkTS name ty class p (collect ps)) by exact (f_equal (fun d => match d with DTexture t => t | _ => mkTS n' ty' c' p' (collect ps') end) E).
      destruct (mkTS_inj _ _ _ _ _ _ _ _ _ _ X) as (-> & -> & -> & -> & Ec). apply sm_params, collect_iff. now symmetry.
    + discriminate E.
  - inversion H' as [p' id' mkB' ds' K' E1 E|p' id' mkD' ty' ps' K' E1 E|p' n' ty' c' ps' E1 E|p' w' E1 E].
    + exfalso. destruct K'; discriminate E.
    + exfalso. destruct K'; discriminate E.
    + subst. constructor.
Qed.
Lemma pre_inj st d st' : pre_of (F := F) st d -> pre_of st' d -> same_stmt st st'.
Proof.
  intros H H'. destruct H as [p|p id fl d K|p id mkP w K|p w|p id mkP ty ps K].
  - inversion H' as [|? ? ? ? K' E1 E|? ? ? ? K' E1 E| |? ? ? ? ? K' E1 E]; subst; [constructor|inversion K'|destruct K'; discriminate E|destruct K'; discriminate E].
  - inversion H' as [|? ? ? ? K' E1 E|? ? ? ? K' E1 E| |? ? ? ? ? K' E1 E]; subst.
    + inversion K.
    + destruct (numbers_inj _ _ _ _ _ _ _ K K') as (-> & -> & ->). constructor.
    + exfalso. destruct K'; inversion K.
    + inversion K.
    + exfalso. destruct K'; inversion K.
  - inversion H' as [? E1 E|? ? ? ? K' E1 E|? ? ? ? K' E1 E|? ? E1 E|? ? ? ? ? K' E1 E]; subst.
    + exfalso. destruct K; discriminate E.
    + exfalso. destruct K; inversion K'.
    + destruct (pstr_inj _ _ _ _ _ _ _ _ K' K E) as (-> & -> & ->). constructor.
    + exfalso. destruct K; discriminate E.
    + exfalso. destruct K, K'; discriminate E.
  - inversion H' as [|? ? ? ? K' E1 E|? ? ? ? K' E1 E| |? ? ? ? ? K' E1 E]; subst; [inversion K'|destruct K'; discriminate E|constructor|destruct K'; discriminate E].
  - inversion H' as [? E1 E|? ? ? ? K' E1 E|? ? ? ? K' E1 E|? ? E1 E|? ? ? ? ? K' E1 E]; subst.
    + exfalso. destruct K; discriminate E.
    + exfalso. destruct K; inversion K'.
    + exfalso. destruct K, K'; discriminate E.
    + exfalso. destruct K; discriminate E.
    + destruct (pstruct_inj _ _ _ _ _ _ K' K E) as (-> & Eds). destruct (mkDS_inj _ _ _ _ _ _ Eds) as (-> & -> & Ec). apply sm_params, collect_iff. now symmetry.
Qed.
Lemma world_of_first (l : list stmt) d ds : world_of l (d :: ds) -> exists st l', l = st :: l' /\ first_of st d /\
  (world_of l' ds /\ (forall p e, d <> DAttribute p e /\ d <> DTransform p e /\ d <> DWorld p e) \/ ds = [] /\ world_of l' (children d) /\ exists p e, d = DAttribute p e \/ d = DTransform p e \/ d = DWorld p e).
Proof.
  intros H. inversion H as [|p id mkB l0 ds0 K|p id mkD ty ps l0 ds0 K| |]; subst; do 2 eexists; (split; [reflexivity|]); (split; [now constructor|]).
  - right. split; [reflexivity|]. split; [destruct K; assumption|]. destruct K; eauto 10.
  - left. split; [assumption|]. intros q e. destruct K; repeat split; discriminate.
  - left. split; [assumption|]. intros q e. repeat split; discriminate.
  - left. split; [assumption|]. intros q e. repeat split; discriminate.
Qed.
Lemma world_of_inj l ds : world_of (F := F) l ds -> forall l', world_of l' ds -> Forall2 same_stmt l l'.
Proof.
  induction 1 as [|p id mkB l ds K Hw IH|p id mkD ty ps l ds K Hw IH|p name ty class ps l ds Hw IH|p w l ds Hw IH]; intros l' Hl'.
  - inversion Hl'; constructor.
  - destruct (world_of_first _ _ _ Hl') as (st & l2 & -> & H1 & [(Hw2 & N)|(E & Hw2 & _)]).
    + exfalso. destruct K; destruct (N p ds) as (N1 & N2 & N3); congruence.
    + constructor; [eapply first_inj; [|exact H1]; now constructor|]. apply IH. destruct K; exact Hw2.
  - destruct (world_of_first _ _ _ Hl') as (st & l2 & -> & H1 & [(Hw2 & N)|(E & Hw2 & q & e & N)]); [|exfalso; destruct K, N as [N|[N|N]]; discriminate N].
    constructor; [eapply first_inj; [|exact H1]; now constructor|]. auto.
  - destruct (world_of_first _ _ _ Hl') as (st & l2 & -> & H1 & [(Hw2 & N)|(E & Hw2 & q & e & N)]); [|exfalso; destruct N as [N|[N|N]]; discriminate N].
    constructor; [eapply first_inj; [|exact H1]; now constructor|]. auto.
  - destruct (world_of_first _ _ _ Hl') as (st & l2 & -> & H1 & [(Hw2 & N)|(E & Hw2 & q & e & N)]); [|exfalso; destruct N as [N|[N|N]]; discriminate N].
    constructor; [eapply first_inj; [|exact H1]; now constructor|]. auto.
Qed.
Lemma scene_of_inj l x : scene_of (F := F) l x -> forall l', scene_of l' x -> Forall2 same_stmt l l'.
Proof.
  induction 1 as [p l ds Hw|st d l ds w Hp Hs IH]; intros l' Hl'; inversion Hl'; subst.
  - constructor; [constructor|eapply world_of_inj; eauto].
  - constructor; [eapply pre_inj; eauto|auto].
Qed.
(** Statements that are the same mean the same. *)
Lemma world_of_same (l l' : list stmt) : Forall2 same_stmt l l' -> forall ds, world_of (F := F) l ds -> world_of l' ds.
Proof.
  induction 1 as [|st st' l l' Hst Hl IH]; intros ds Hw; [assumption|]. inversion Hst as [|p id ws ps ps' R]; subst.
  - inversion Hw; subst; constructor; auto.
  - inversion Hw; subst; rewrite (collect_reorder _ _ R); constructor; auto.
Qed.
Lemma pre_of_same st st' d : same_stmt (F := F) st st' -> pre_of st d -> pre_of st' d.
Proof.
  intros Hst Hp. inversion Hst as [|p id ws ps ps' R]; subst; [assumption|].
  inversion Hp; subst. rewrite (collect_reorder _ _ R). now constructor.
Qed.
Lemma scene_of_same (l l' : list stmt) : Forall2 same_stmt l l' -> forall x, scene_of (F := F) l x -> scene_of l' x.
Proof.
  induction 1 as [|st st' l l' Hst Hl IH]; intros x Hx; [assumption|]. inversion Hx; subst.
  - inversion Hst; subst. constructor. eapply world_of_same; eauto.
  - constructor; [eapply pre_of_same; eauto|auto].
Qed.

(** Tokens in the order of their places: the order of parameters is remembered as well. *)
Definition in_order (l : list (pitem (F := F))) : Prop := StronglySorted pos_lt (map pi_pos l).
Definition ordered (st : stmt (F := F)) : Prop := match st with SParams _ _ _ l => in_order l | _ => True end.
Lemma reorder_perm (l l' : list (pitem (F := F))) : reorder l l' -> Permutation l l'.
Proof. induction 1; [apply Permutation_refl|apply perm_swap|now constructor|eapply Permutation_trans; eauto]. Qed.
Lemma in_order_eq (l : list pitem) : forall l', in_order l -> in_order l' -> Permutation l l' -> l = l'.
Proof.
  induction l as [|i l IH]; intros [|j l'] H H' P.
  - reflexivity.
  - apply Permutation_nil in P. discriminate P.
  - apply Permutation_sym, Permutation_nil in P. discriminate P.
  - unfold in_order in *. cbn in H, H'. inversion H as [|? ? Hs Hf]; subst. inversion H' as [|? ? Hs' Hf']; subst.
    assert (E : i = j).
    { assert (Hi : In i (j :: l')) by (eapply Permutation_in; [exact P|now left]).
      assert (Hj : In j (i :: l)) by (eapply Permutation_in; [apply Permutation_sym; exact P|now left]).
      destruct Hi as [->|Hi]; [reflexivity|]. destruct Hj as [->|Hj]; [reflexivity|]. exfalso.
      rewrite Forall_forall in Hf, Hf'. apply (pos_lt_irrefl (pi_pos i)).
      eapply pos_lt_trans; [apply Hf, in_map, Hj|apply Hf', in_map, Hi]. }
    subst j. f_equal. apply IH; [assumption|assumption|]. eapply Permutation_cons_inv. exact P.
Qed.
Lemma statement_ordered s st r : statement fo s st r -> StronglySorted pos_lt (map tok_pos s) -> ordered st /\ StronglySorted pos_lt (map tok_pos r).
Proof.
  intros H Hs. destruct H as [p id r Hk|p id fl s r Hk Hi Hn|p id q w r Hk|p id q w r Hk|p id h ws s l r Hk Eh Hp]; cbn [ordered].
  - cbn in Hs. inversion Hs; auto.
  - destruct (cf_items _ (cf_float fo) _ _ _ Hi) as (c & -> & _). split; [exact I|].
    eapply subseq_sorted; [|exact Hs]. cbn. constructor. rewrite map_app. apply subseq_app_l, subseq_refl.
  - split; [exact I|]. eapply subseq_sorted; [|exact Hs]. cbn. do 2 constructor. apply subseq_refl.
  - split; [exact I|]. eapply subseq_sorted; [|exact Hs]. cbn. do 2 constructor. apply subseq_refl.
  - destruct (cf_params fo _ _ _ Hp) as (c & -> & _ & Hc & _). split; (eapply subseq_sorted; [|exact Hs]); cbn; constructor; rewrite !map_app; apply subseq_app_l.
    + now apply subseq_app_r.
    + apply subseq_app_l, subseq_refl.
Qed.
Lemma statements_ordered s l r : statements fo s l r -> StronglySorted pos_lt (map tok_pos s) -> Forall ordered l.
Proof.
  induction 1 as [p id r Hc|s st s' l r Hst Hs IH]; intros Ho; constructor;
    destruct (statement_ordered _ _ _ Hst Ho) as [H1 H2]; auto.
Qed.
Lemma same_ordered (l l' : list stmt) : Forall2 same_stmt l l' -> Forall ordered l -> Forall ordered l' -> l = l'.
Proof.
  induction 1 as [|st st' l l' Hst Hl IH]; intros H H'; [reflexivity|]. inversion H; inversion H'; subst. f_equal; [|auto].
  inversion Hst as [|p id ws ps ps' R]; subst; [reflexivity|]. f_equal. apply in_order_eq; [assumption|assumption|now apply reorder_perm].
Qed.

(** *** The results *)
Lemma tokens_statements ts x : parse_tokens fo ts = Done (Ok x) <-> exists l r, statements fo ts l r /\ scene_of l x.
Proof. rewrite parse_tokens_iff. apply scene_statements. Qed.
Lemma tokens_same ts ts' x : parse_tokens fo ts = Done (Ok x) ->
  (parse_tokens fo ts' = Done (Ok x) <-> exists l r l' r', statements fo ts l r /\ scene_of l x /\ statements fo ts' l' r' /\ Forall2 same_stmt l l').
Proof.
  intros H. apply tokens_statements in H as (l & r & Hs & Hx). split.
  - intros H'. apply tokens_statements in H' as (l' & r' & Hs' & Hx'). exists l, r, l', r'. repeat split; auto. eapply scene_of_inj; eauto.
  - intros (m & q & l' & r' & Hm & Hmx & Hs' & Hl). apply tokens_statements. exists l', r'. split; [assumption|]. eapply scene_of_same; eauto.
Qed.
Section Texts.
Context (cc : CharClass).
Lemma text_statements chk input x : parse fo cc chk input = Done (Ok x) <->
  exists ts l r, tokenize fo cc chk input = Done (Ok ts) /\ statements fo ts l r /\ scene_of l x.
Proof.
  split.
  - intros H. unfold parse in H. destruct (tokenize fo cc chk input) as [[ts|e]| |] eqn:E; try discriminate H.
    apply tokens_statements in H as (l & r & H). eauto 6.
  - intros (ts & l & r & E & H). unfold parse. rewrite E. apply tokens_statements. eauto.
Qed.
Lemma text_same (Hcc : cc_ok cc) chk chk' a b x : parse fo cc chk a = Done (Ok x) -> parse fo cc chk' b = Done (Ok x) ->
  exists ts ts' l r r', tokenize fo cc chk a = Done (Ok ts) /\ tokenize fo cc chk' b = Done (Ok ts') /\ statements fo ts l r /\ statements fo ts' l r'.
Proof.
  intros Ha Hb. apply text_statements in Ha as (ts & l & r & E & Hs & Hx). apply text_statements in Hb as (ts' & l' & r' & E' & Hs' & Hx').
  pose proof (scene_of_inj _ _ Hx _ Hx') as S.
  rewrite <- (same_ordered _ _ S (statements_ordered _ _ _ Hs (proj1 (tokenize_positions fo cc Hcc _ _ _ E))) (statements_ordered _ _ _ Hs' (proj1 (tokenize_positions fo cc Hcc _ _ _ E')))) in Hs'.
  eauto 12.
Qed.
Lemma text_converse chk chk' a b ts ts' l r r' x : tokenize fo cc chk a = Done (Ok ts) -> tokenize fo cc chk' b = Done (Ok ts') ->
  statements fo ts l r -> statements fo ts' l r' -> scene_of l x -> parse fo cc chk a = Done (Ok x) /\ parse fo cc chk' b = Done (Ok x).
Proof. intros E E' H H' Hx. split; apply text_statements; eauto 6. Qed.
End Texts.
End Remember.
