(** The parser model against the token grammar: directives and scenes. *)
From Verif Require Import Base TokModel ParModel SceneSpec SynErrSpec TokProofs ParProofs.
Open Scope mon_scope.

Scheme directive_mut := Minimality for directive Sort Prop
  with directives_mut := Minimality for directives Sort Prop.
Scheme dir_eof_mut := Minimality for dir_eof Sort Prop
  with dirs_eof_mut := Minimality for dirs_eof Sort Prop.

Section Dir.
Context {F : Type} (fo : FloatOps F).
Notation toks := (list (Token F)).
Notation PM A := (M (@parser F) (result A (error F))).

(** [fails p s e]: started in front of [s], [p] returns [Err e]. *)
Definition fails {A} (p : PM A) (s : toks) (e : error F) : Prop :=
  forall pre, exists st, p (pm pre s) = Done (Err e, st).

Lemma fails_tryb {A B} (p : PM A) (k : A -> PM B) s e : fails p s e -> fails (tryb p k) s e.
Proof. intros H pre. destruct (H pre) as [st R]. exists st. now apply tryb_Err. Qed.
Lemma fails_tryb_ok {A B} (p : PM A) (k : A -> PM B) s a s' e :
  runs p s (Ok a) s' -> fails (k a) s' e -> fails (tryb p k) s e.
Proof.
  intros H Hk pre. destruct (H pre) as (c & E & R). destruct (Hk (pre ++ c)) as [st R']. exists st.
  erewrite tryb_Ok by exact R. exact R'.
Qed.
Lemma fails_bind {A B} (p : M (@parser F) A) (k : A -> PM B) s a s' e :
  runs p s a s' -> fails (k a) s' e -> fails (bind p k) s e.
Proof.
  intros H Hk pre. destruct (H pre) as (c & E & R). destruct (Hk (pre ++ c)) as [st R']. exists st.
  erewrite bind_Done by exact R. exact R'.
Qed.
Lemma fails_ret {A} s e : fails (ret (@Err A _ e)) s e.
Proof. intros pre. eexists. reflexivity. Qed.
Lemma runs_fails {A} (p : PM A) s e r : runs p s (Err e) r -> fails p s e.
Proof. intros H pre. destruct (H pre) as (c & E & R). eauto. Qed.
Lemma fails_not_ok {A} (p : PM A) s e a r : fails p s e -> runs p s (Ok a) r -> False.
Proof. intros H H'. destruct (H []) as [st R]. destruct (H' []) as (c & E & R'). congruence. Qed.
Lemma fails_det {A} (p : PM A) s e e' : fails p s e -> fails p s e' -> e = e'.
Proof. intros H H'. destruct (H []) as [st R]. destruct (H' []) as (st' & R'). congruence. Qed.

Lemma is_closer_In id : is_closer id = true <-> In id closers.
Proof.
  unfold is_closer, closers. cbn [map In]. rewrite !orb_true_iff, !str_eqb_eq. intuition auto.
Qed.

Lemma params_run_len s l r : params_run fo s l r -> length r <= length s.
Proof. intros H. exact (runs_len _ _ _ _ (param_lists_ok fo _ _ _ H)). Qed.
Lemma params_len s l r : params fo s l r -> length r <= length s.
Proof. intros H. eapply params_run_len. eapply params_params_run; eauto. Qed.

Lemma directive_less : forall s d r, directive fo s d r -> length r < length s.
Proof.
  apply (directive_mut F fo (fun s d r => length r < length s) (fun s ds r => length r <= length s)); cbn [length]; intros;
    try lia.
  - apply params_len in H0. lia.
  - apply params_len in H. lia.
Qed.
Lemma directives_len s ds r : directives fo s ds r -> length r <= length s.
Proof. induction 1 as [|s d s' ds r Hd Hds IH]; [lia|]. apply directive_less in Hd. lia. Qed.

(** ** A string, then parameters *)
Lemma struct_ok p q ty s l r : params_run fo s l r ->
  runs (parse_struct fo p) (mkTok q (TStr ty) :: s) (Ok (mkDS ty p (collect l))) r.
Proof.
  intros H. unfold parse_struct. eapply runs_tryb; [apply (is_ok _ _ str_spec); constructor|].
  eapply runs_tryb; [apply param_lists_ok; exact H|]. apply runs_ret.
Qed.
Lemma struct_total p s :
  (exists q ty s' l r, s = mkTok q (TStr ty) :: s' /\ params_run fo s' l r /\
      runs (parse_struct fo p) s (Ok (mkDS ty p (collect l))) r) \/
  exists m, fails (parse_struct fo p) s (EStr m).
Proof.
  destruct (is_dec _ _ (str_spec (F := F)) s) as [(w & r & H)|H].
  - destruct H as [q w r]. destruct (params_run_total fo r) as (l & r' & Hl). left.
    do 5 eexists. split; [reflexivity|]. split; [exact Hl|]. now apply struct_ok.
  - right. destruct (is_err _ _ str_spec _ H) as [m R]. exists m. eapply fails_tryb. eapply runs_fails. exact R.
Qed.

Lemma id_ok p id (s : toks) : runs (@parse_identifier F) (mkTok p (TIdent id) :: s) (Ok id) s.
Proof.
  unfold parse_identifier. eapply runs_bind; [apply runs_peek|]. cbv iota beta.
  eapply runs_bind; [apply runs_next|]. apply runs_ret.
Qed.
Lemma id_err (s : toks) : (forall p id s', s <> mkTok p (TIdent id) :: s') -> exists m, fails (@parse_identifier F) s (EStr m).
Proof.
  intros H. unfold parse_identifier. destruct s as [|[p [w|i|x|w| |]] s].
  2: elim (H p w s eq_refl).
  all: eexists; eapply fails_bind; [first [apply runs_peek|apply runs_peek_nil]|]; apply fails_ret.
Qed.
Lemma str_total (s : toks) : (exists q w s', s = mkTok q (TStr w) :: s') \/ exists m, fails (@parse_string F) s (EStr m).
Proof.
  destruct (is_dec _ _ (str_spec (F := F)) s) as [(w & r & H)|H].
  - destruct H. left. eauto.
  - right. destruct (is_err _ _ str_spec _ H) as [m R]. exists m. eapply runs_fails. exact R.
Qed.
Lemma str_ok q w (s : toks) : runs (@parse_string F) (mkTok q (TStr w) :: s) (Ok w) s.
Proof. apply (is_ok _ _ str_spec). constructor. Qed.

Ltac pick_kw := repeat (first
  [ rewrite str_eqb_refl
  | match goal with |- context [str_eqb (s2l ?a) (s2l ?b)] => change (str_eqb (s2l a) (s2l b)) with false end ]; cbv iota).

(** ** One directive *)
Section Body.
Context (block : PM (list (Directive F))) (n : nat).
Hypothesis block_ok : forall s ds r, length s < n -> directives fo s ds r -> runs block s (Ok ds) r.
Hypothesis block_eof : forall s, length s < n -> dirs_eof fo s -> fails block s EEof.
Hypothesis block_total : forall s, length s < n ->
  (exists ds r, directives fo s ds r) \/ dirs_eof fo s \/ exists m, fails block s (EStr m).

Notation body := (parse_directive_body fo block).

Lemma body_ok s d r : length s < S n -> directive fo s d r -> runs body s (Ok d) r.
Proof.
  intros Hl H. unfold parse_directive_body.
  destruct H as [p id mkD q ty s l r Hk Hp|p id mkB s ds r Hk Hd|p q path r|p q1 name q2 ty q3 class s l r Hp];
    (eapply runs_tryb; [apply runs_pos|]; cbn [tok_pos]; eapply runs_tryb; [apply id_ok|]).
  - apply params_params_run in Hp. destruct Hk; pick_kw; (eapply runs_tryb; [apply struct_ok; exact Hp|]; apply runs_ret).
  - assert (R : runs block s (Ok ds) r) by (apply block_ok; [cbn [length] in Hl; lia|assumption]).
    destruct Hk; pick_kw; (eapply runs_tryb; [exact R|]; apply runs_ret).
  - pick_kw. eapply runs_tryb; [apply str_ok|]. apply runs_ret.
  - apply params_params_run in Hp. pick_kw.
    eapply runs_tryb; [apply str_ok|]. eapply runs_tryb; [apply str_ok|]. eapply runs_tryb; [apply str_ok|].
    eapply runs_tryb; [apply param_lists_ok; exact Hp|]. apply runs_ret.
Qed.

Lemma body_eof s : length s < S n -> dir_eof fo s -> fails body s EEof.
Proof.
  intros Hl H. unfold parse_directive_body. destruct H as [p id mkB s Hk Hd].
  eapply fails_tryb_ok; [apply runs_pos|]. cbn [tok_pos]. eapply fails_tryb_ok; [apply id_ok|].
  assert (R : fails block s EEof) by (apply block_eof; [cbn [length] in Hl; lia|assumption]).
  destruct Hk; pick_kw; (eapply fails_tryb; exact R).
Qed.

Definition body_outcome (s : toks) : Prop :=
  (exists d r, directive fo s d r) \/ dir_eof fo s \/
  (exists d r, runs body s (Ok d) r /\ ~ quiet r /\ length r < length s) \/
  exists m, fails body s (EStr m).

Lemma quiet_dec (s : toks) : quiet s \/ ~ quiet s.
Proof. destruct s as [|[q [w|i|x|w| |]] s]; cbn; tauto. Qed.

Lemma body_total p id s : length (mkTok p (TIdent id) :: s) < S n -> body_outcome (mkTok p (TIdent id) :: s).
Proof.
  intros Hl. cbn [length] in Hl.
  (* common prefix *)
  assert (Pre_run : forall (k : Pos -> str -> PM (Directive F)) d r,
     runs (k p id) s (Ok d) r ->
     runs (start_pos <-? pr_pos ;; id <-? parse_identifier ;; k start_pos id) (mkTok p (TIdent id) :: s) (Ok d) r).
  { intros k d r R. eapply runs_tryb; [apply runs_pos|]. cbn [tok_pos]. eapply runs_tryb; [apply id_ok|]. exact R. }
  assert (Pre_fail : forall (k : Pos -> str -> PM (Directive F)) e,
     fails (k p id) s e ->
     fails (start_pos <-? pr_pos ;; id <-? parse_identifier ;; k start_pos id) (mkTok p (TIdent id) :: s) e).
  { intros k e R. eapply fails_tryb_ok; [apply runs_pos|]. cbn [tok_pos]. eapply fails_tryb_ok; [apply id_ok|]. exact R. }
  (* the three shapes *)
  assert (Struct : forall mkD, struct_kw (F := F) id mkD -> body_outcome (mkTok p (TIdent id) :: s)).
  { intros mkD Hk. destruct (struct_total p s) as [(q & ty & s' & l & r & -> & Hp & R)|[m R]].
    - destruct (quiet_dec r) as [Hq|Hq].
      + left. do 2 eexists. eapply di_struct; [exact Hk|]. eapply params_run_params; eauto.
      + right; right; left. exists (mkD (mkDS ty p (collect l))), r. split.
        * unfold parse_directive_body. apply Pre_run. destruct Hk; pick_kw; (eapply runs_tryb; [exact R|]; apply runs_ret).
        * split; [assumption|]. apply params_run_len in Hp. cbn [length]. lia.
    - right; right; right. exists m. unfold parse_directive_body. apply Pre_fail.
      destruct Hk; pick_kw; (eapply fails_tryb; exact R). }
  assert (Block : forall mkB, block_kw (F := F) id mkB -> body_outcome (mkTok p (TIdent id) :: s)).
  { intros mkB Hk. destruct (block_total s ltac:(lia)) as [(ds & r & Hd)|[He|[m R]]].
    - left. do 2 eexists. eapply di_block; eauto.
    - right; left. econstructor; eauto.
    - right; right; right. exists m. unfold parse_directive_body. apply Pre_fail.
      destruct Hk; pick_kw; (eapply fails_tryb; exact R). }
  destruct (str_eqb id (s2l "Material")) eqn:E1; [apply str_eqb_eq in E1; subst id; eapply Struct; constructor|].
  destruct (str_eqb id (s2l "Shape")) eqn:E2; [apply str_eqb_eq in E2; subst id; eapply Struct; constructor|].
  destruct (str_eqb id (s2l "LightSource")) eqn:E3; [apply str_eqb_eq in E3; subst id; eapply Struct; constructor|].
  destruct (str_eqb id (s2l "AreaLightSource")) eqn:E4; [apply str_eqb_eq in E4; subst id; eapply Struct; constructor|].
  destruct (str_eqb id (s2l "AttributeBegin")) eqn:E5; [apply str_eqb_eq in E5; subst id; eapply Block; constructor|].
  destruct (str_eqb id (s2l "TransformBegin")) eqn:E6; [apply str_eqb_eq in E6; subst id; eapply Block; constructor|].
  destruct (str_eqb id (s2l "WorldBegin")) eqn:E7; [apply str_eqb_eq in E7; subst id; eapply Block; constructor|].
  clear Struct Block.
  destruct (str_eqb id (s2l "Include")) eqn:E8.
  { apply str_eqb_eq in E8; subst id. destruct (str_total s) as [(q & w & s' & ->)|[m R]].
    - left. do 2 eexists. apply di_include.
    - right; right; right. exists m. unfold parse_directive_body. apply Pre_fail. pick_kw. eapply fails_tryb; exact R. }
  destruct (str_eqb id (s2l "Texture")) eqn:E9.
  { apply str_eqb_eq in E9; subst id.
    assert (Fail : (exists m, fails (name <-? parse_string ;; ty <-? parse_string ;; class <-? parse_string ;;
       ps <-? parse_param_lists fo ps_empty ;; ret (Ok (DTexture (mkTS name ty class p ps)))) s (EStr m)) ->
       body_outcome (mkTok p (TIdent (s2l "Texture")) :: s)).
    { intros [m R]. right; right; right. exists m. unfold parse_directive_body. apply Pre_fail. pick_kw. exact R. }
    destruct (str_total s) as [(q1 & w1 & s1 & ->)|[m R]]; [|apply Fail; exists m; eapply fails_tryb; exact R].
    destruct (str_total s1) as [(q2 & w2 & s2 & ->)|[m R]];
      [|apply Fail; exists m; eapply fails_tryb_ok; [apply str_ok|]; eapply fails_tryb; exact R].
    destruct (str_total s2) as [(q3 & w3 & s3 & ->)|[m R]];
      [|apply Fail; exists m; eapply fails_tryb_ok; [apply str_ok|]; eapply fails_tryb_ok; [apply str_ok|]; eapply fails_tryb; exact R].
    clear Fail. destruct (params_run_total fo s3) as (l & r & Hp). destruct (quiet_dec r) as [Hq|Hq].
    - left. do 2 eexists. eapply di_texture. eapply params_run_params; eauto.
    - right; right; left. exists (DTexture (mkTS w1 w2 w3 p (collect l))), r. split.
      + unfold parse_directive_body. apply Pre_run. pick_kw.
        eapply runs_tryb; [apply str_ok|]. eapply runs_tryb; [apply str_ok|]. eapply runs_tryb; [apply str_ok|].
        eapply runs_tryb; [apply param_lists_ok; exact Hp|]. apply runs_ret.
      + split; [assumption|]. apply params_run_len in Hp. cbn [length]. lia. }
  right; right; right. eexists. unfold parse_directive_body. apply Pre_fail.
  rewrite E1, E2, E3, E4, E5, E6, E7, E8, E9. apply fails_ret.
Qed.
End Body.

(** ** The directives of a block *)
Lemma directive_ident s d r : directive fo s d r -> exists p id s', s = mkTok p (TIdent id) :: s' /\ is_closer id = false.
Proof. intros [p id mkD q ty s0 l r0 Hk Hp|p id mkB s0 ds r0 Hk Hd| |]; try (destruct Hk); do 3 eexists; split; reflexivity. Qed.
Lemma dir_eof_ident s : dir_eof fo s -> exists p id s', s = mkTok p (TIdent id) :: s' /\ is_closer id = false.
Proof. intros [p id mkB s0 Hk Hd]; destruct Hk; do 3 eexists; split; reflexivity. Qed.

Lemma loop_step n acc p id s : is_closer id = false ->
  forall pre, parse_directives_loop fo (S n) acc (pm pre (mkTok p (TIdent id) :: s))
  = (d <-? parse_directive_body fo (parse_directives_loop fo n []) ;; parse_directives_loop fo n (acc ++ [d]))
      (pm pre (mkTok p (TIdent id) :: s)).
Proof.
  intros Hc pre. cbn [parse_directives_loop].
  erewrite tryb_Ok by apply peek_pm. cbv beta. cbn [tok_ty]. now rewrite Hc.
Qed.
Lemma loop_runs n acc p id s a r : is_closer id = false ->
  runs (d <-? parse_directive_body fo (parse_directives_loop fo n []) ;; parse_directives_loop fo n (acc ++ [d]))
       (mkTok p (TIdent id) :: s) a r ->
  runs (parse_directives_loop fo (S n) acc) (mkTok p (TIdent id) :: s) a r.
Proof. intros Hc H pre. rewrite loop_step by auto. apply H. Qed.
Lemma loop_fails n acc p id s e : is_closer id = false ->
  fails (d <-? parse_directive_body fo (parse_directives_loop fo n []) ;; parse_directives_loop fo n (acc ++ [d]))
       (mkTok p (TIdent id) :: s) e ->
  fails (parse_directives_loop fo (S n) acc) (mkTok p (TIdent id) :: s) e.
Proof. intros Hc H pre. rewrite loop_step by auto. apply H. Qed.

Lemma dirs_main n : forall s, length s < n ->
  (forall ds r acc, directives fo s ds r -> runs (parse_directives_loop fo n acc) s (Ok (acc ++ ds)) r) /\
  (forall acc, dirs_eof fo s -> fails (parse_directives_loop fo n acc) s EEof) /\
  ((exists ds r, directives fo s ds r) \/ dirs_eof fo s \/
   (forall acc, exists m, fails (parse_directives_loop fo n acc) s (EStr m))).
Proof.
  induction n as [|n IH]; intros s Hl; [lia|].
  assert (Bok : forall s ds r, length s < n -> directives fo s ds r -> runs (parse_directives_loop fo n []) s (Ok ds) r).
  { intros s0 ds r H0 Hd. exact (proj1 (IH s0 H0) ds r [] Hd). }
  assert (Beof : forall s, length s < n -> dirs_eof fo s -> fails (parse_directives_loop fo n []) s EEof).
  { intros s0 H0 Hd. exact (proj1 (proj2 (IH s0 H0)) [] Hd). }
  assert (Btot : forall s, length s < n ->
     (exists ds r, directives fo s ds r) \/ dirs_eof fo s \/ exists m, fails (parse_directives_loop fo n []) s (EStr m)).
  { intros s0 H0. destruct (proj2 (proj2 (IH s0 H0))) as [H|[H|H]]; auto. }
  split; [|split].
  - intros ds r acc Hd. inversion Hd as [p id s0 Hc|s0 d s' ds' r0 Hdir Hds]; subst.
    + intros pre. exists []. rewrite !app_nil_r. split; [reflexivity|]. cbn [parse_directives_loop].
      erewrite tryb_Ok by apply peek_pm. cbv beta. cbn [tok_ty]. apply is_closer_In in Hc. now rewrite Hc.
    + destruct (directive_ident _ _ _ Hdir) as (p & id & s1 & -> & Hc). apply loop_runs; [assumption|].
      pose proof (directive_less _ _ _ Hdir) as Hlt.
      eapply runs_tryb; [eapply body_ok with (n := n); eauto|].
      destruct (IH s') as [I1 _]; [cbn [length] in *; lia|].
      specialize (I1 ds' r (acc ++ [d]) Hds). now rewrite <- app_assoc in I1.
  - intros acc He. inversion He as [|s0 Hd|s0 d s' Hdir Hds]; subst.
    + intros pre. eexists. cbn [parse_directives_loop]. erewrite tryb_Err by apply peek_pm_nil. reflexivity.
    + destruct (dir_eof_ident _ Hd) as (p & id & s1 & -> & Hc). apply loop_fails; [assumption|].
      eapply fails_tryb. eapply body_eof with (n := n); eauto.
    + destruct (directive_ident _ _ _ Hdir) as (p & id & s1 & -> & Hc). apply loop_fails; [assumption|].
      pose proof (directive_less _ _ _ Hdir) as Hlt.
      eapply fails_tryb_ok; [eapply body_ok with (n := n); eauto|].
      destruct (IH s') as (_ & I2 & _); [cbn [length] in *; lia|]. now apply I2.
  - destruct s as [|[p [id|i|x|w| |]] s].
    { right; left. constructor. }
    2-6: right; right; intros acc; eexists; intros pre; eexists; cbn [parse_directives_loop];
         erewrite tryb_Ok by apply peek_pm; reflexivity.
    destruct (is_closer id) eqn:Hc.
    { left. do 2 eexists. apply ds_close. now apply is_closer_In. }
    destruct (body_total _ n Btot p id s Hl) as [(d & r & Hd)|[He|[(d & r & R & Hq & Hlt)|[m R]]]].
    + pose proof (directive_less _ _ _ Hd) as Hlt.
      destruct (IH r) as (I1 & I2 & I3); [lia|]. destruct I3 as [(ds & r' & Hds)|[He|Hf]].
      * left. do 2 eexists. eapply ds_cons; eauto.
      * right; left. eapply dse_cons; eauto.
      * right; right. intros acc. destruct (Hf (acc ++ [d])) as [m R]. exists m. apply loop_fails; [assumption|].
        eapply fails_tryb_ok; [eapply body_ok with (n := n); eauto|]. exact R.
    + right; left. now apply dse_in.
    + right; right. intros acc.
      assert (exists m, fails (parse_directives_loop fo n (acc ++ [d])) r (EStr m)) as [m Hm].
      { destruct n as [|n']; [cbn [length] in *; lia|].
        destruct r as [|[p' [id'|i|x|w| |]] r]; cbn in Hq; try tauto;
          (eexists; intros pre; eexists; cbn [parse_directives_loop]; erewrite tryb_Ok by apply peek_pm; reflexivity). }
      exists m. apply loop_fails; [assumption|]. eapply fails_tryb_ok; [exact R|]. exact Hm.
    + right; right. intros acc. exists m. apply loop_fails; [assumption|]. eapply fails_tryb. exact R.
Qed.

Lemma fuel_pm pre (s : toks) : length s < pr_fuel (pm pre s).
Proof. unfold pr_fuel, pm; cbn [pr_tokens]. rewrite app_length. lia. Qed.

Lemma directives_ok s ds r : directives fo s ds r -> runs (parse_directives fo) s (Ok ds) r.
Proof.
  intros H pre. unfold parse_directives, bind at 1, get.
  destruct (dirs_main _ s (fuel_pm pre s)) as (H1 & _ & _). exact (H1 ds r [] H pre).
Qed.
Lemma directives_eof s : dirs_eof fo s -> fails (parse_directives fo) s EEof.
Proof.
  intros H pre. unfold parse_directives, bind at 1, get.
  destruct (dirs_main _ s (fuel_pm pre s)) as (_ & H2 & _). exact (H2 [] H pre).
Qed.
(** The message may depend on the fuel only formally; existence is enough here. *)
Definition fails_str {A} (p : PM A) (s : toks) : Prop := forall pre, exists m st, p (pm pre s) = Done (Err (EStr m), st).
Lemma directives_total s : (exists ds r, directives fo s ds r) \/ dirs_eof fo s \/ fails_str (parse_directives fo) s.
Proof.
  destruct (dirs_main (S (length s)) s ltac:(lia)) as (_ & _ & [H|[H|H]]); auto.
  right; right. intros pre. unfold parse_directives, bind at 1, get.
  destruct (dirs_main _ s (fuel_pm pre s)) as (_ & _ & [(ds & r & Hd)|[He|H']]).
  - exfalso. destruct (H []) as [m R]. destruct (dirs_main (S (length s)) s ltac:(lia)) as (H1 & _ & _).
    eapply fails_not_ok; [exact R|]. eapply H1; eauto.
  - exfalso. destruct (H []) as [m R]. destruct (dirs_main (S (length s)) s ltac:(lia)) as (_ & H2 & _).
    pose proof (fails_det _ _ _ _ R (H2 [] He)). discriminate.
  - destruct (H' []) as [m R]. exists m. apply R.
Qed.

(** ** Pre-directives *)
Lemma not_number_no_item s : not_number s <-> no_item (float_item fo) s.
Proof.
  split.
  - intros H v r Hi. destruct Hi; exact H.
  - intros H. destruct s as [|[p [w|i|x|w| |]] s]; cbn; try exact I; exfalso; eapply H; constructor.
Qed.

Lemma numbers_total s :
  (exists fl r, items (float_item fo) s fl r /\ not_number r /\ runs (parse_floats fo) s (Ok fl) r) \/
  (not_number s /\ exists m, fails (parse_floats fo) s (EStr m)).
Proof.
  destruct (items_dec _ _ (float_spec fo) s) as [(vs & r & Hv & Hr)|Hs].
  - left. exists vs, r. split; [assumption|]. split; [now apply not_number_no_item|].
    now apply (parse_many_ok _ _ (float_spec fo)).
  - right. split; [now apply not_number_no_item|].
    destruct (parse_many_err _ _ (float_spec fo) "float" s Hs) as [m R]. exists m. eapply runs_fails; exact R.
Qed.

Lemma floats_ok p what n s fl r : items (float_item fo) s fl r -> not_number r -> length fl = n ->
  runs (floats_exactly fo p what n) s (Ok fl) r.
Proof.
  intros Hi Hr Hn. unfold floats_exactly. eapply runs_tryb.
  - apply (parse_many_ok _ _ (float_spec fo)); [exact Hi|]. now apply not_number_no_item.
  - rewrite Hn, Nat.eqb_refl. apply runs_ret.
Qed.
Lemma floats_total p what n s :
  (exists fl r, items (float_item fo) s fl r /\ not_number r /\ length fl = n) \/
  exists m, fails (floats_exactly fo p what n) s (EStr m).
Proof.
  destruct (numbers_total s) as [(fl & r & Hi & Hr & R)|[_ [m R]]].
  - destruct (Nat.eq_dec (length fl) n) as [Hn|Hn]; [left; eauto|right]. eexists. unfold floats_exactly.
    eapply fails_tryb_ok; [exact R|]. apply Nat.eqb_neq in Hn. rewrite Hn. apply fails_ret.
  - right. exists m. unfold floats_exactly. eapply fails_tryb. exact R.
Qed.

Ltac idx := repeat (eapply runs_bind; [first [apply runs_vidx; reflexivity]|]).
Lemma vec3_ok fl i a b c s : nth_error fl i = Some a -> nth_error fl (i + 1) = Some b -> nth_error fl (i + 2) = Some c ->
  runs (@vec3_at F fl i) s (mkV3 a b c) s.
Proof.
  intros. unfold vec3_at. eapply runs_bind; [apply runs_vidx; eassumption|].
  eapply runs_bind; [apply runs_vidx; eassumption|]. eapply runs_bind; [apply runs_vidx; eassumption|]. apply runs_ret.
Qed.
Lemma mat3_ok a b c d e f g h i s : runs (@mat3_of F [a; b; c; d; e; f; g; h; i]) s (mkM3 (a, b, c) (d, e, f) (g, h, i)) s.
Proof. unfold mat3_of. idx. apply runs_ret. Qed.

Lemma predirective_ok s d r : predirective fo s d r -> runs (parse_predirective fo) s (Ok d) r.
Proof.
  intros H. unfold parse_predirective.
  destruct H as [p r|p id fl d s r Hk Hi Hr|p id mkP q w r Hk|p q w r|p id mkP q ty s l r Hk Hp];
    (eapply runs_tryb; [apply runs_pos|]; cbn [tok_pos]; eapply runs_tryb; [apply id_ok|]).
  - pick_kw. apply runs_ret.
  - destruct Hk; pick_kw; (eapply runs_tryb; [eapply floats_ok; [exact Hi|exact Hr|reflexivity]|]).
    all: try (eapply runs_bind; [apply vec3_ok; reflexivity|]; apply runs_ret).
    all: try (eapply runs_bind; [apply mat3_ok|]; apply runs_ret).
    + eapply runs_bind; [apply runs_vidx; reflexivity|]. eapply runs_bind; [apply vec3_ok; reflexivity|]. apply runs_ret.
    + idx. apply runs_ret.
  - destruct Hk; pick_kw; (eapply runs_tryb; [apply str_ok|]; apply runs_ret).
  - pick_kw. eapply runs_tryb; [apply id_ok|]. apply runs_ret.
  - apply params_params_run in Hp. destruct Hk; pick_kw; (eapply runs_tryb; [apply struct_ok; exact Hp|]; apply runs_ret).
Qed.

Lemma items_float_less s fl r : items (float_item fo) s fl r -> length r < length s.
Proof. apply (items_less _ _ (float_spec fo)). Qed.
Lemma predirective_less s d r : predirective fo s d r -> length r < length s.
Proof.
  intros [p r0|p id fl d0 s0 r0 Hk Hi Hr|p id mkP q w r0 Hk|p q w r0|p id mkP q ty s0 l r0 Hk Hp]; cbn [length]; try lia.
  - apply items_float_less in Hi. lia.
  - apply params_len in Hp. lia.
Qed.

Definition pre_outcome (s : toks) : Prop :=
  (exists d r, predirective fo s d r) \/
  (exists d r, runs (parse_predirective fo) s (Ok d) r /\ ~ quiet r /\ length r < length s) \/
  exists m, fails (parse_predirective fo) s (EStr m).

Lemma predirective_total p id s : pre_outcome (mkTok p (TIdent id) :: s).
Proof.
  assert (Pre_run : forall (k : Pos -> str -> PM (PreDirective F)) d r,
     runs (k p id) s (Ok d) r ->
     runs (start_pos <-? pr_pos ;; id <-? parse_identifier ;; k start_pos id) (mkTok p (TIdent id) :: s) (Ok d) r).
  { intros k d r R. eapply runs_tryb; [apply runs_pos|]. cbn [tok_pos]. eapply runs_tryb; [apply id_ok|]. exact R. }
  assert (Pre_fail : forall (k : Pos -> str -> PM (PreDirective F)) e,
     fails (k p id) s e ->
     fails (start_pos <-? pr_pos ;; id <-? parse_identifier ;; k start_pos id) (mkTok p (TIdent id) :: s) e).
  { intros k e R. eapply fails_tryb_ok; [apply runs_pos|]. cbn [tok_pos]. eapply fails_tryb_ok; [apply id_ok|]. exact R. }
  assert (Struct : forall mkP, pstruct_kw (F := F) id mkP -> pre_outcome (mkTok p (TIdent id) :: s)).
  { intros mkP Hk. destruct (struct_total p s) as [(q & ty & s' & l & r & -> & Hp & R)|[m R]].
    - destruct (quiet_dec r) as [Hq|Hq].
      + left. do 2 eexists. eapply pd_struct; [exact Hk|]. eapply params_run_params; eauto.
      + right; left. exists (mkP (mkDS ty p (collect l))), r. split.
        * unfold parse_predirective. apply Pre_run. destruct Hk; pick_kw; (eapply runs_tryb; [exact R|]; apply runs_ret).
        * split; [assumption|]. apply params_run_len in Hp. cbn [length]. lia.
    - right; right. exists m. unfold parse_predirective. apply Pre_fail.
      destruct Hk; pick_kw; (eapply fails_tryb; exact R). }
  assert (Str : forall mkP, pstr_kw (F := F) id mkP -> pre_outcome (mkTok p (TIdent id) :: s)).
  { intros mkP Hk. destruct (str_total s) as [(q & w & s' & ->)|[m R]].
    - left. do 2 eexists. eapply pd_str; eauto.
    - right; right. exists m. unfold parse_predirective. apply Pre_fail.
      destruct Hk; pick_kw; (eapply fails_tryb; exact R). }
  assert (Num : forall what n,
     (forall fl : list F, length fl = n -> exists d, numbers_kw id p fl d) ->
     (forall m, fails (floats_exactly fo p what n) s (EStr m) -> fails (parse_predirective fo) (mkTok p (TIdent id) :: s) (EStr m)) ->
     pre_outcome (mkTok p (TIdent id) :: s)).
  { intros what n Hk Hf. destruct (floats_total p what n s) as [(fl & r & Hi & Hr & Hn)|[m R]].
    - destruct (Hk fl Hn) as [d Hd]. left. do 2 eexists. eapply pd_numbers; eauto.
    - right; right. exists m. now apply Hf. }
  destruct (str_eqb id (s2l "Identity")) eqn:E1.
  { apply str_eqb_eq in E1; subst id. left. do 2 eexists. constructor. }
  destruct (str_eqb id (s2l "Translate")) eqn:E2.
  { apply str_eqb_eq in E2; subst id. apply (Num "Translate"%string 3).
    - intros fl Hn. destruct fl as [|a [|b [|c [|]]]]; try discriminate. eexists. constructor.
    - intros m R. unfold parse_predirective. apply Pre_fail. pick_kw. eapply fails_tryb; exact R. }
  destruct (str_eqb id (s2l "Scale")) eqn:E3.
  { apply str_eqb_eq in E3; subst id. apply (Num "Scale"%string 3).
    - intros fl Hn. destruct fl as [|a [|b [|c [|]]]]; try discriminate. eexists. constructor.
    - intros m R. unfold parse_predirective. apply Pre_fail. pick_kw. eapply fails_tryb; exact R. }
  destruct (str_eqb id (s2l "Rotate")) eqn:E4.
  { apply str_eqb_eq in E4; subst id. apply (Num "Rotate"%string 4).
    - intros fl Hn. destruct fl as [|a [|b [|c [|d [|]]]]]; try discriminate. eexists. constructor.
    - intros m R. unfold parse_predirective. apply Pre_fail. pick_kw. eapply fails_tryb; exact R. }
  destruct (str_eqb id (s2l "LookAt")) eqn:E5.
  { apply str_eqb_eq in E5; subst id. apply (Num "LookAt"%string 9).
    - intros fl Hn. destruct fl as [|a [|b [|c [|d [|e [|f [|g [|h [|i [|]]]]]]]]]]; try discriminate. eexists. constructor.
    - intros m R. unfold parse_predirective. apply Pre_fail. pick_kw. eapply fails_tryb; exact R. }
  destruct (str_eqb id (s2l "CoordinateSystem")) eqn:E6; [apply str_eqb_eq in E6; subst id; eapply Str; constructor|].
  destruct (str_eqb id (s2l "CoordSysTransform")) eqn:E7; [apply str_eqb_eq in E7; subst id; eapply Str; constructor|].
  destruct (str_eqb id (s2l "Transform")) eqn:E8.
  { apply str_eqb_eq in E8; subst id. apply (Num "Transform"%string 9).
    - intros fl Hn. destruct fl as [|a [|b [|c [|d [|e [|f [|g [|h [|i [|]]]]]]]]]]; try discriminate. eexists. constructor.
    - intros m R. unfold parse_predirective. apply Pre_fail. pick_kw. eapply fails_tryb; exact R. }
  destruct (str_eqb id (s2l "ConcatTransform")) eqn:E9.
  { apply str_eqb_eq in E9; subst id. apply (Num "ConcatTransform"%string 9).
    - intros fl Hn. destruct fl as [|a [|b [|c [|d [|e [|f [|g [|h [|i [|]]]]]]]]]]; try discriminate. eexists. constructor.
    - intros m R. unfold parse_predirective. apply Pre_fail. pick_kw. eapply fails_tryb; exact R. }
  destruct (str_eqb id (s2l "ActiveTransform")) eqn:E10.
  { apply str_eqb_eq in E10; subst id.
    assert (D : (exists q w s', s = mkTok q (TIdent w) :: s') \/ forall q w s', s <> mkTok q (TIdent w) :: s').
    { destruct s as [|[q [w|i|x|w| |]] s]; try (right; congruence). left. eauto. }
    destruct D as [(q & w & s' & ->)|D].
    - left. do 2 eexists. apply pd_active.
    - destruct (id_err s D) as [m R]. right; right. exists m. unfold parse_predirective. apply Pre_fail. pick_kw.
      eapply fails_tryb; exact R. }
  destruct (str_eqb id (s2l "TransformTimes")) eqn:E11.
  { apply str_eqb_eq in E11; subst id. apply (Num "TransformTimes"%string 2).
    - intros fl Hn. destruct fl as [|a [|b [|]]]; try discriminate. eexists. constructor.
    - intros m R. unfold parse_predirective. apply Pre_fail. pick_kw. eapply fails_tryb; exact R. }
  destruct (str_eqb id (s2l "Camera")) eqn:E12; [apply str_eqb_eq in E12; subst id; eapply Struct; constructor|].
  destruct (str_eqb id (s2l "Sampler")) eqn:E13; [apply str_eqb_eq in E13; subst id; eapply Struct; constructor|].
  destruct (str_eqb id (s2l "Film")) eqn:E14; [apply str_eqb_eq in E14; subst id; eapply Struct; constructor|].
  destruct (str_eqb id (s2l "Filter")) eqn:E15; [apply str_eqb_eq in E15; subst id; eapply Struct; constructor|].
  destruct (str_eqb id (s2l "Integrator")) eqn:E16; [apply str_eqb_eq in E16; subst id; eapply Struct; constructor|].
  destruct (str_eqb id (s2l "Accelerator")) eqn:E17; [apply str_eqb_eq in E17; subst id; eapply Struct; constructor|].
  destruct (str_eqb id (s2l "Include")) eqn:E18; [apply str_eqb_eq in E18; subst id; eapply Str; constructor|].
  right; right. eexists. unfold parse_predirective. apply Pre_fail.
  rewrite E1, E2, E3, E4, E5, E6, E7, E8, E9, E10, E11, E12, E13, E14, E15, E16, E17, E18. apply fails_ret.
Qed.

Lemma predirective_ident s d r : predirective fo s d r ->
  exists p id s', s = mkTok p (TIdent id) :: s' /\ str_eqb id (s2l "WorldBegin") = false.
Proof. intros [p r0|p id fl d0 s0 r0 Hk Hi Hr|p id mkP q w r0 Hk|p q w r0|p id mkP q ty s0 l r0 Hk Hp]; try (destruct Hk); do 3 eexists; split; reflexivity. Qed.

Lemma ploop_step n acc p id s : str_eqb id (s2l "WorldBegin") = false ->
  forall pre, parse_predirectives_loop fo (S n) acc (pm pre (mkTok p (TIdent id) :: s))
  = (d <-? parse_predirective fo ;; parse_predirectives_loop fo n (acc ++ [d])) (pm pre (mkTok p (TIdent id) :: s)).
Proof.
  intros Hc pre. cbn [parse_predirectives_loop].
  erewrite tryb_Ok by apply peek_pm. cbv beta. cbn [tok_ty]. now rewrite Hc.
Qed.
Lemma ploop_runs n acc p id s a r : str_eqb id (s2l "WorldBegin") = false ->
  runs (d <-? parse_predirective fo ;; parse_predirectives_loop fo n (acc ++ [d])) (mkTok p (TIdent id) :: s) a r ->
  runs (parse_predirectives_loop fo (S n) acc) (mkTok p (TIdent id) :: s) a r.
Proof. intros Hc H pre. rewrite ploop_step by auto. apply H. Qed.
Lemma ploop_fails n acc p id s e : str_eqb id (s2l "WorldBegin") = false ->
  fails (d <-? parse_predirective fo ;; parse_predirectives_loop fo n (acc ++ [d])) (mkTok p (TIdent id) :: s) e ->
  fails (parse_predirectives_loop fo (S n) acc) (mkTok p (TIdent id) :: s) e.
Proof. intros Hc H pre. rewrite ploop_step by auto. apply H. Qed.

Lemma pre_main n : forall s, length s < n ->
  (forall ds r acc, predirectives fo s ds r -> runs (parse_predirectives_loop fo n acc) s (Ok (acc ++ ds)) r) /\
  (forall acc, pre_eof fo s -> fails (parse_predirectives_loop fo n acc) s EEof) /\
  ((exists ds r, predirectives fo s ds r) \/ pre_eof fo s \/
   (forall acc, exists m, fails (parse_predirectives_loop fo n acc) s (EStr m))).
Proof.
  induction n as [|n IH]; intros s Hl; [lia|]. split; [|split].
  - intros ds r acc Hd. inversion Hd as [p s0|s0 d s' ds' r0 Hdir Hds]; subst.
    + intros pre. exists []. rewrite !app_nil_r. split; [reflexivity|]. cbn [parse_predirectives_loop].
      erewrite tryb_Ok by apply peek_pm. cbv beta. cbn [tok_ty]. now rewrite str_eqb_refl.
    + destruct (predirective_ident _ _ _ Hdir) as (p & id & s1 & -> & Hc). apply ploop_runs; [assumption|].
      pose proof (predirective_less _ _ _ Hdir) as Hlt.
      eapply runs_tryb; [apply predirective_ok; eassumption|].
      destruct (IH s') as [I1 _]; [cbn [length] in *; lia|].
      specialize (I1 ds' r (acc ++ [d]) Hds). now rewrite <- app_assoc in I1.
  - intros acc He. inversion He as [|s0 d s' Hdir Hds]; subst.
    + intros pre. eexists. cbn [parse_predirectives_loop]. erewrite tryb_Err by apply peek_pm_nil. reflexivity.
    + destruct (predirective_ident _ _ _ Hdir) as (p & id & s1 & -> & Hc). apply ploop_fails; [assumption|].
      pose proof (predirective_less _ _ _ Hdir) as Hlt.
      eapply fails_tryb_ok; [apply predirective_ok; eassumption|].
      destruct (IH s') as (_ & I2 & _); [cbn [length] in *; lia|]. now apply I2.
  - destruct s as [|[p [id|i|x|w| |]] s].
    { right; left. constructor. }
    2-6: right; right; intros acc; eexists; intros pre; eexists; cbn [parse_predirectives_loop];
         erewrite tryb_Ok by apply peek_pm; reflexivity.
    destruct (str_eqb id (s2l "WorldBegin")) eqn:Hc.
    { apply str_eqb_eq in Hc. subst id. left. do 2 eexists. apply pds_world. }
    destruct (predirective_total p id s) as [(d & r & Hd)|[(d & r & R & Hq & Hlt)|[m R]]].
    + pose proof (predirective_less _ _ _ Hd) as Hlt.
      destruct (IH r) as (I1 & I2 & I3); [lia|]. destruct I3 as [(ds & r' & Hds)|[He|Hf]].
      * left. do 2 eexists. eapply pds_cons; eauto.
      * right; left. eapply pe_cons; eauto.
      * right; right. intros acc. destruct (Hf (acc ++ [d])) as [m R]. exists m. apply ploop_fails; [assumption|].
        eapply fails_tryb_ok; [apply predirective_ok; eassumption|]. exact R.
    + right; right. intros acc.
      assert (exists m, fails (parse_predirectives_loop fo n (acc ++ [d])) r (EStr m)) as [m Hm].
      { destruct n as [|n']; [cbn [length] in *; lia|].
        destruct r as [|[p' [id'|i|x|w| |]] r]; cbn in Hq; try tauto;
          (eexists; intros pre; eexists; cbn [parse_predirectives_loop]; erewrite tryb_Ok by apply peek_pm; reflexivity). }
      exists m. apply ploop_fails; [assumption|]. eapply fails_tryb_ok; [exact R|]. exact Hm.
    + right; right. intros acc. exists m. apply ploop_fails; [assumption|]. eapply fails_tryb. exact R.
Qed.

Lemma predirectives_world s ds r : predirectives fo s ds r -> exists p s', r = mkTok p (TIdent (s2l "WorldBegin")) :: s'.
Proof. induction 1; eauto. Qed.

(** ** Scenes *)
Lemma directive_pd_ok s d r : directive fo s d r -> runs (parse_directive fo) s (Ok d) r.
Proof.
  intros H. unfold parse_directive. eapply body_ok with (n := length s); [|lia|assumption].
  intros s0 ds r0 _ Hd. now apply directives_ok.
Qed.
Lemma directive_pd_eof s : dir_eof fo s -> fails (parse_directive fo) s EEof.
Proof.
  intros H. unfold parse_directive. eapply body_eof with (n := length s); [|lia|assumption].
  intros s0 _ Hd. now apply directives_eof.
Qed.

Definition scene_outcome (s : toks) : Prop :=
  (exists x, scene fo s x /\ parse_tokens fo s = Done (Ok x)) \/
  (scene_eof fo s /\ parse_tokens fo s = Done (Err EEof)) \/
  (exists m, parse_tokens fo s = Done (Err (EStr m))).

Lemma parse_tokens_ok s x : scene fo s x -> parse_tokens fo s = Done (Ok x).
Proof.
  intros [s0 pres s' w r Hp Hd]. unfold parse_tokens, parse_tokens_m.
  destruct (pre_main _ s0 (fuel_pm [] s0)) as (H1 & _ & _).
  assert (R : runs (pres <-? parse_predirectives_loop fo (pr_fuel (pm [] s0)) [] ;; d <-? parse_directive fo ;; ret (Ok (pres, d))) s0 (Ok (pres, w)) r).
  { eapply runs_tryb; [exact (H1 pres s' [] Hp)|]. eapply runs_tryb; [apply directive_pd_ok; exact Hd|]. apply runs_ret. }
  destruct (R []) as (c & E & R'). change (pm [] s0) with (mkPr s0 0) in R' at 2.
  unfold tryb at 1, bind at 1, parse_predirectives, bind at 1, get. unfold tryb at 1, bind at 1 in R'.
  change (pr_fuel (mkPr s0 0)) with (pr_fuel (pm [] s0)). now rewrite R'.
Qed.
Lemma parse_tokens_eof s : scene_eof fo s -> parse_tokens fo s = Done (Err EEof).
Proof.
  intros H. destruct (pre_main _ s (fuel_pm [] s)) as (H1 & H2 & _).
  assert (R : fails (pres <-? parse_predirectives_loop fo (pr_fuel (pm [] s)) [] ;; d <-? parse_directive fo ;; ret (Ok (pres, d))) s EEof).
  { destruct H as [s Hp|s pres s' Hp Hd].
    - eapply fails_tryb. now apply H2.
    - eapply fails_tryb_ok; [exact (H1 pres s' [] Hp)|]. eapply fails_tryb. now apply directive_pd_eof. }
  destruct (R []) as (st & R'). change (pm [] s) with (mkPr s 0) in R' at 2.
  unfold parse_tokens, parse_tokens_m.
  unfold tryb at 1, bind at 1, parse_predirectives, bind at 1, get. unfold tryb at 1, bind at 1 in R'.
  change (pr_fuel (mkPr s 0)) with (pr_fuel (pm [] s)). now rewrite R'.
Qed.
Lemma parse_tokens_total s : scene_outcome s.
Proof.
  destruct (pre_main _ s (fuel_pm [] s)) as (H1 & H2 & H3).
  destruct H3 as [(pres & r & Hp)|[He|Hf]].
  - destruct (predirectives_world _ _ _ Hp) as (p & s' & ->).
    destruct (directives_total s') as [(ds & r' & Hds)|[Hds|Hds]].
    + left. eexists. assert (Hs : scene fo s (pres, DWorld p ds)).
      { econstructor; [exact Hp|]. apply (di_block fo p _ DWorld); [constructor|exact Hds]. }
      split; [exact Hs|]. now apply parse_tokens_ok.
    + right; left. assert (Hs : scene_eof fo s).
      { eapply se_world; [exact Hp|]. econstructor; [constructor|exact Hds]. }
      split; [assumption|]. now apply parse_tokens_eof.
    + right; right. unfold parse_tokens, parse_tokens_m.
      destruct (H1 pres _ [] Hp []) as (c & E & R). cbn [app] in R.
      unfold tryb at 1, bind at 1, parse_predirectives, bind at 1, get.
      change (pm [] s) with (mkPr s 0) in R at 2. change (pr_fuel (mkPr s 0)) with (pr_fuel (pm [] s)). rewrite R.
      unfold tryb at 1, bind at 1. unfold parse_directive, parse_directive_body.
      erewrite tryb_Ok by apply pos_pm. cbn [tok_pos].
      destruct (id_ok p (s2l "WorldBegin") s' c) as (c' & E' & R'). erewrite tryb_Ok by exact R'. pick_kw.
      destruct (Hds (c ++ c')) as (m & st & Rd). erewrite tryb_Err by exact Rd. exists m; reflexivity.
  - right; left. assert (Hs : scene_eof fo s) by now apply se_pre. split; [assumption|]. now apply parse_tokens_eof.
  - right; right. destruct (Hf []) as [m R]. destruct (R []) as [st R']. exists m. unfold parse_tokens, parse_tokens_m.
    unfold tryb at 1, bind at 1, parse_predirectives, bind at 1, get.
    change (pm [] s) with (mkPr s 0) in R' at 2. change (pr_fuel (mkPr s 0)) with (pr_fuel (pm [] s)). now rewrite R'.
Qed.

Theorem parse_tokens_iff s x : parse_tokens fo s = Done (Ok x) <-> scene fo s x.
Proof.
  split; [|apply parse_tokens_ok]. intros H. destruct (parse_tokens_total s) as [(y & Hs & E)|[(Hs & E)|[m E]]]; congruence.
Qed.
Theorem parse_tokens_eof_iff s : parse_tokens fo s = Done (Err EEof) <-> scene_eof fo s.
Proof.
  split; [|apply parse_tokens_eof]. intros H. destruct (parse_tokens_total s) as [(y & Hs & E)|[(Hs & E)|[m E]]]; congruence.
Qed.
Theorem parse_tokens_no_panic s : exists r, parse_tokens fo s = Done r.
Proof. destruct (parse_tokens_total s) as [(y & Hs & E)|[(Hs & E)|[m E]]]; eauto. Qed.

End Dir.
