(** The parser model against the specification of syntax errors. *)
From Verif Require Import Base TokModel ParModel SceneSpec SynErrSpec TokProofs ParProofs DirProofs.
Open Scope mon_scope.

Scheme dir_error_mut := Minimality for dir_error Sort Prop
  with dirs_error_mut := Minimality for dirs_error Sort Prop.

Section Syn.
Context {F : Type} (fo : FloatOps F).
Notation toks := (list (Token F)).
Notation PM A := (M (@parser F) (result A (error F))).
Notation msg := (list (piece F)).

Ltac pick_kw := repeat (first
  [ rewrite str_eqb_refl
  | match goal with |- context [str_eqb (s2l ?a) (s2l ?b)] => change (str_eqb (s2l a) (s2l b)) with false end ]; cbv iota).

Lemma fails_peek {B} (k : result (Token F) (error F) -> PM B) t s e :
  fails (k (Ok t)) (t :: s) e -> fails (bind pr_peek k) (t :: s) e.
Proof. intros H. eapply fails_bind; [apply runs_peek|exact H]. Qed.
Lemma fails_peek_nil {B} (k : result (Token F) (error F) -> PM B) e :
  fails (k (Err EEof)) [] e -> fails (bind pr_peek k) [] e.
Proof. intros H. eapply fails_bind; [apply runs_peek_nil|exact H]. Qed.

(** ** Strings, identifiers, numbers *)
Lemma string_error_fails s m : string_error s m -> fails (@parse_string F) s (EStr m).
Proof.
  intros [|p ty s' H]; unfold parse_string.
  - apply fails_peek_nil. apply fails_ret.
  - apply fails_peek. destruct ty as [w|i|x|w| |]; cbv iota beta; cbn [tok_ty tok_pos]; try apply fails_ret. elim (H w eq_refl).
Qed.
Lemma string_cases (s : toks) : (exists q w s', s = mkTok q (TStr w) :: s') \/ exists m, string_error s m.
Proof.
  destruct s as [|[p [w|i|x|w| |]] s]; try (right; eexists; constructor; congruence). left; eauto.
Qed.
Lemma ident_error_fails s m : ident_error s m -> fails (@parse_identifier F) s (EStr m).
Proof.
  intros [|p ty s' H]; unfold parse_identifier.
  - apply fails_peek_nil. apply fails_ret.
  - apply fails_peek. destruct ty as [w|i|x|w| |]; cbv iota beta; cbn [tok_ty tok_pos]; try apply fails_ret. elim (H w eq_refl).
Qed.
Lemma ident_cases (s : toks) : (exists q w s', s = mkTok q (TIdent w) :: s') \/ exists m, ident_error s m.
Proof.
  destruct s as [|[p [w|i|x|w| |]] s]; try (right; eexists; constructor; congruence). left; eauto.
Qed.
Lemma number_error_runs s m : number_error s m -> runs (parse_float fo) s (Err (EStr m)) s.
Proof.
  intros [|p ty s' H]; unfold parse_float.
  - eapply runs_bind; [apply runs_peek_nil|]. apply runs_ret.
  - eapply runs_bind; [apply runs_peek|]. destruct ty as [w|i|x|w| |]; cbn in H; try tauto; apply runs_ret.
Qed.
Definition no_numbers (m : msg) : msg :=
  [PText "parse_many_"; PText "float"; PText "s(): error while processing "; PText "float"; PText "s:
  "; PErr (EStr m)].
Lemma number_error_fails s m : number_error s m -> fails (parse_floats fo) s (EStr (no_numbers m)).
Proof.
  intros H pre. destruct (number_error_runs _ _ H pre) as (c & E & R). eexists.
  unfold parse_floats, parse_many, bind at 1, get. unfold pr_fuel. cbn [parse_many_loop].
  erewrite bind_Done by exact R. reflexivity.
Qed.
Lemma number_cases (s : toks) :
  (exists fl r, items (float_item fo) s fl r /\ not_number r) \/ exists m, number_error s m.
Proof.
  destruct (numbers_total fo s) as [(fl & r & Hi & Hr & _)|[H _]]; [left; eauto|right].
  destruct s as [|[p ty] s]; eexists; constructor. exact H.
Qed.
Lemma count_fails p what n s fl r : items (float_item fo) s fl r -> not_number r -> length fl <> n ->
  fails (floats_exactly fo p what n) s
    (EStr [PPos p; PText " parse_predirective(): "; PText what; PText " expects "; PNat n; PText " floats but was given ";
           PNat (length fl)]).
Proof.
  intros Hi Hr Hn. unfold floats_exactly. eapply fails_tryb_ok.
  - apply (parse_many_ok _ _ (float_spec fo)); [exact Hi|]. now apply not_number_no_item.
  - apply Nat.eqb_neq in Hn. rewrite Hn. apply fails_ret.
Qed.

(** ** Pre-directives *)
Lemma not_in_false id (l : list string) : ~ In id (map s2l l) -> Forall (fun w => str_eqb id (s2l w) = false) l.
Proof.
  induction l as [|w l IH]; cbn [map In]; constructor.
  - destruct (str_eqb id (s2l w)) eqn:E; [|reflexivity]. apply str_eqb_eq in E. subst. tauto.
  - apply IH. tauto.
Qed.

Lemma pre_error_fails s m : pre_error fo s m -> fails (parse_predirective fo) s (EStr m).
Proof.
  intros H. unfold parse_predirective.
  destruct H as [p id mkP s m Hk He|p id mkP s m Hk He|p s m He|p what n s m Hk He|p what n s fl r Hk Hi Hr Hn|p id s Hw Hid];
    (eapply fails_tryb_ok; [apply runs_pos|]; cbn [tok_pos]; eapply fails_tryb_ok; [apply id_ok|]).
  - apply string_error_fails in He. destruct Hk; pick_kw; (eapply fails_tryb; unfold parse_struct; eapply fails_tryb; exact He).
  - apply string_error_fails in He. destruct Hk; pick_kw; (eapply fails_tryb; exact He).
  - apply ident_error_fails in He. pick_kw. eapply fails_tryb; exact He.
  - apply number_error_fails in He. destruct Hk; pick_kw; (eapply fails_tryb; unfold floats_exactly; eapply fails_tryb; exact He).
  - destruct Hk; pick_kw; (eapply fails_tryb; eapply count_fails; eassumption).
  - apply not_in_false in Hid.
    repeat (match goal with H : Forall _ (_ :: _) |- _ => inversion H; clear H; subst end).
    repeat match goal with H : str_eqb id _ = false |- _ => rewrite H; clear H end. apply fails_ret.
Qed.

Definition pre_stuck (s r : toks) : Prop :=
  exists p id mkP q w s' l, s = mkTok p (TIdent id) :: mkTok q (TStr w) :: s' /\ pstruct_kw (F := F) id mkP /\
    params_run fo s' l r.

Lemma pre_cases p id s : id <> s2l "WorldBegin" ->
  (exists d r, predirective fo (mkTok p (TIdent id) :: s) d r) \/
  (exists r, pre_stuck (mkTok p (TIdent id) :: s) r /\ ~ quiet r) \/
  exists m, pre_error fo (mkTok p (TIdent id) :: s) m.
Proof.
  intros Hw.
  assert (Struct : forall mkP, pstruct_kw (F := F) id mkP ->
    (exists d r, predirective fo (mkTok p (TIdent id) :: s) d r) \/
    (exists r, pre_stuck (mkTok p (TIdent id) :: s) r /\ ~ quiet r) \/
    exists m, pre_error fo (mkTok p (TIdent id) :: s) m).
  { intros mkP Hk. destruct (string_cases s) as [(q & w & s' & ->)|[m He]].
    - destruct (params_run_total fo s') as (l & r & Hl). destruct (quiet_dec r) as [Hq|Hq].
      + left. do 2 eexists. eapply pd_struct; [exact Hk|]. eapply params_run_params; eauto.
      + right; left. exists r. split; [|assumption]. exists p, id, mkP, q, w, s', l. auto.
    - right; right. exists m. eapply pre_struct; eauto. }
  assert (Str : forall mkP, pstr_kw (F := F) id mkP ->
    (exists d r, predirective fo (mkTok p (TIdent id) :: s) d r) \/
    (exists r, pre_stuck (mkTok p (TIdent id) :: s) r /\ ~ quiet r) \/
    exists m, pre_error fo (mkTok p (TIdent id) :: s) m).
  { intros mkP Hk. destruct (string_cases s) as [(q & w & s' & ->)|[m He]].
    - left. do 2 eexists. eapply pd_str; eauto.
    - right; right. exists m. eapply pre_str; eauto. }
  assert (Num : forall what n, id = s2l what -> count_kw what n ->
    (forall fl : list F, length fl = n -> exists d, numbers_kw id p fl d) ->
    (exists d r, predirective fo (mkTok p (TIdent id) :: s) d r) \/
    (exists r, pre_stuck (mkTok p (TIdent id) :: s) r /\ ~ quiet r) \/
    exists m, pre_error fo (mkTok p (TIdent id) :: s) m).
  { intros what n Hid Hk Hd. destruct (number_cases s) as [(fl & r & Hi & Hr)|[m He]].
    - destruct (Nat.eq_dec (length fl) n) as [Hn|Hn].
      + destruct (Hd fl Hn) as [d Hd']. left. do 2 eexists. eapply pd_numbers; eauto.
      + right; right. subst id. eexists. eapply pre_count; eauto.
    - right; right. subst id. eexists. eapply pre_no_number; eauto. }
  destruct (in_dec (list_eq_dec N.eq_dec) id pre_keywords) as [Hin|Hout].
  2: { right; right. eexists. apply pre_unknown; assumption. }
  unfold pre_keywords in Hin. cbn [map In] in Hin.
  destruct Hin as [<-|[<-|[<-|[<-|[<-|[<-|[<-|[<-|[<-|[<-|[<-|[<-|[<-|[<-|[<-|[<-|[<-|[<-|[]]]]]]]]]]]]]]]]]]].
  - left. do 2 eexists. constructor.
  - eapply Num; [reflexivity|constructor|]. intros fl Hn.
    destruct fl as [|a [|b [|c [|]]]]; try discriminate. eexists. constructor.
  - eapply Num; [reflexivity|constructor|]. intros fl Hn.
    destruct fl as [|a [|b [|c [|]]]]; try discriminate. eexists. constructor.
  - eapply Num; [reflexivity|constructor|]. intros fl Hn.
    destruct fl as [|a [|b [|c [|d [|]]]]]; try discriminate. eexists. constructor.
  - eapply Num; [reflexivity|constructor|]. intros fl Hn.
    destruct fl as [|a [|b [|c [|d [|e [|f [|g [|h [|i [|]]]]]]]]]]; try discriminate. eexists. constructor.
  - eapply Str. constructor.
  - eapply Str. constructor.
  - eapply Num; [reflexivity|constructor|]. intros fl Hn.
    destruct fl as [|a [|b [|c [|d [|e [|f [|g [|h [|i [|]]]]]]]]]]; try discriminate. eexists. constructor.
  - eapply Num; [reflexivity|constructor|]. intros fl Hn.
    destruct fl as [|a [|b [|c [|d [|e [|f [|g [|h [|i [|]]]]]]]]]]; try discriminate. eexists. constructor.
  - destruct (ident_cases s) as [(q & w & s' & ->)|[m He]].
    + left. do 2 eexists. apply pd_active.
    + right; right. exists m. now apply pre_active.
  - eapply Num; [reflexivity|constructor|]. intros fl Hn.
    destruct fl as [|a [|b [|]]]; try discriminate. eexists. constructor.
  - eapply Struct. constructor.
  - eapply Struct. constructor.
  - eapply Struct. constructor.
  - eapply Struct. constructor.
  - eapply Struct. constructor.
  - eapply Struct. constructor.
  - eapply Str. constructor.
Qed.

Lemma pre_error_ident s m : pre_error fo s m ->
  exists p id s', s = mkTok p (TIdent id) :: s' /\ str_eqb id (s2l "WorldBegin") = false.
Proof.
  intros [p id mkP s0 m0 Hk He|p id mkP s0 m0 Hk He|p s0 m0 He|p what n s0 m0 Hk He|p what n s0 fl r Hk Hi Hr Hn|p id s0 Hw Hid];
    try destruct Hk; do 3 eexists; (split; [reflexivity|]); try reflexivity. now apply str_eqb_neq.
Qed.

(** A directive whose parameters stop somewhere other than an identifier or the end. *)
Lemma stuck_runs s r : pre_stuck s r -> exists d, runs (parse_predirective fo) s (Ok d) r.
Proof.
  intros (p & id & mkP & q & w & s' & l & -> & Hk & Hl). exists (mkP (mkDS w p (collect l))).
  unfold parse_predirective. eapply runs_tryb; [apply runs_pos|]. cbn [tok_pos]. eapply runs_tryb; [apply id_ok|].
  destruct Hk; pick_kw; (eapply runs_tryb; [apply struct_ok; exact Hl|]; apply runs_ret).
Qed.
Lemma ploop_token n acc p ty (s : toks) : (forall w, ty <> TIdent w) ->
  fails (parse_predirectives_loop fo (S n) acc) (mkTok p ty :: s)
    (EStr [PPos p; PText " parse_predirectives(): expected predirective but got "; PTok ty]).
Proof.
  intros H pre. eexists. cbn [parse_predirectives_loop]. erewrite tryb_Ok by apply peek_pm. cbn [tok_ty tok_pos].
  destruct ty as [w|i|x|w| |]; try reflexivity. elim (H w eq_refl).
Qed.

Lemma pres_error_fails s m : pres_error fo s m ->
  forall n acc, length s < n -> fails (parse_predirectives_loop fo n acc) s (EStr m).
Proof.
  induction 1 as [p ty s Hty|p id mkP q w s l p' ty r Hk Hl Hty|s m He|s d s' m Hd Hs IH]; intros n acc Hn;
    (destruct n as [|n]; [lia|]).
  - now apply ploop_token.
  - assert (Hst : pre_stuck (mkTok p (TIdent id) :: mkTok q (TStr w) :: s) (mkTok p' ty :: r))
      by (exists p, id, mkP, q, w, s, l; auto).
    destruct (stuck_runs _ _ Hst) as [d R]. apply ploop_fails; [destruct Hk; reflexivity|].
    eapply fails_tryb_ok; [exact R|]. destruct n as [|n]; [cbn [length] in Hn; lia|]. now apply ploop_token.
  - destruct (pre_error_ident _ _ He) as (p & id & s' & -> & Hw). apply ploop_fails; [assumption|].
    eapply fails_tryb. now apply pre_error_fails.
  - destruct (predirective_ident _ _ _ _ Hd) as (p & id & s1 & -> & Hc). apply ploop_fails; [assumption|].
    pose proof (predirective_less _ _ _ _ Hd) as Hlt.
    eapply fails_tryb_ok; [apply predirective_ok; eassumption|]. apply IH. cbn [length] in *; lia.
Qed.

Lemma not_quiet (r : toks) : ~ quiet r -> exists p ty r', r = mkTok p ty :: r' /\ forall w, ty <> TIdent w.
Proof.
  destruct r as [|[p ty] r]; [cbn; tauto|]. intros H. exists p, ty, r. split; [reflexivity|]. intros w ->. apply H. exact I.
Qed.

Lemma pres_total s :
  (exists ds r, predirectives fo s ds r) \/ pre_eof fo s \/ exists m, pres_error fo s m.
Proof.
  remember (length s) as n eqn:Hn. revert s Hn. induction n as [n IH] using lt_wf_ind. intros s Hn.
  destruct s as [|[p ty] s]; [right; left; constructor|].
  assert (D : (exists id, ty = TIdent id) \/ forall w, ty <> TIdent w).
  { destruct ty as [w|i|x|w| |]; try (right; congruence). left; eauto. }
  destruct D as [[id ->]|D].
  2: { right; right. eexists. now apply pres_token. }
  destruct (list_eq_dec N.eq_dec id (s2l "WorldBegin")) as [->|Hw].
  { left. do 2 eexists. apply pds_world. }
  destruct (pre_cases p id s Hw) as [(d & r & Hd)|[(r & Hst & Hq)|[m He]]].
  - pose proof (predirective_less _ _ _ _ Hd) as Hlt.
    destruct (IH (length r)) with (s := r) as [(ds & r' & Hds)|[He|[m He]]]; [lia|reflexivity| | |].
    + left. do 2 eexists. eapply pds_cons; eauto.
    + right; left. eapply pe_cons; eauto.
    + right; right. exists m. eapply pres_cons; eauto.
  - right; right. destruct (not_quiet _ Hq) as (p' & ty & r' & -> & Hty).
    destruct Hst as (p0 & id0 & mkP & q & w & s' & l & E & Hk & Hl). rewrite E.
    eexists. eapply pres_stuck; eauto.
  - right; right. exists m. now apply pres_here.
Qed.

(** ** Directives *)
Definition stuck (s r : toks) : Prop :=
  (exists p id mkD q w s' l, s = mkTok p (TIdent id) :: mkTok q (TStr w) :: s' /\ struct_kw (F := F) id mkD /\ params_run fo s' l r) \/
  (exists p q1 w1 q2 w2 q3 w3 s' l,
     s = mkTok p (TIdent (s2l "Texture")) :: mkTok q1 (TStr w1) :: mkTok q2 (TStr w2) :: mkTok q3 (TStr w3) :: s' /\
     params_run fo s' l r).

Lemma dstuck_runs block s r : stuck s r -> exists d, runs (parse_directive_body fo block) s (Ok d) r.
Proof.
  intros [(p & id & mkD & q & w & s' & l & -> & Hk & Hl)|(p & q1 & w1 & q2 & w2 & q3 & w3 & s' & l & -> & Hl)].
  - exists (mkD (mkDS w p (collect l))).
    unfold parse_directive_body. eapply runs_tryb; [apply runs_pos|]. cbn [tok_pos]. eapply runs_tryb; [apply id_ok|].
    destruct Hk; pick_kw; (eapply runs_tryb; [apply struct_ok; exact Hl|]; apply runs_ret).
  - exists (DTexture (mkTS w1 w2 w3 p (collect l))).
    unfold parse_directive_body. eapply runs_tryb; [apply runs_pos|]. cbn [tok_pos]. eapply runs_tryb; [apply id_ok|].
    pick_kw. eapply runs_tryb; [apply str_ok|]. eapply runs_tryb; [apply str_ok|]. eapply runs_tryb; [apply str_ok|].
    eapply runs_tryb; [apply param_lists_ok; exact Hl|]. apply runs_ret.
Qed.
Lemma stuck_ident s r : stuck s r -> exists p id s', s = mkTok p (TIdent id) :: s' /\ is_closer id = false.
Proof.
  intros [(p & id & mkD & q & w & s' & l & -> & Hk & Hl)|(p & q1 & w1 & q2 & w2 & q3 & w3 & s' & l & -> & Hl)];
    try destruct Hk; do 3 eexists; split; reflexivity.
Qed.
Lemma stuck_len s r : stuck s r -> length r < length s.
Proof.
  intros [(p & id & mkD & q & w & s' & l & -> & Hk & Hl)|(p & q1 & w1 & q2 & w2 & q3 & w3 & s' & l & -> & Hl)];
    apply params_run_len in Hl; cbn [length]; lia.
Qed.
Lemma dir_error_ident s m : dir_error fo s m -> exists p id s', s = mkTok p (TIdent id) :: s' /\ is_closer id = false.
Proof.
  intros [p id mkD s0 m0 Hk He|p s0 m0 He|p s0 m0 He|p q w s0 m0 He|p q w q' w' s0 m0 He|p id mkB s0 m0 Hk He|p id s0 Hc Hid];
    try destruct Hk; do 3 eexists; (split; [reflexivity|]); try reflexivity.
  destruct (is_closer id) eqn:E; [|reflexivity]. apply is_closer_In in E. tauto.
Qed.
Lemma loop_token n acc p ty (s : toks) : (forall w, ty <> TIdent w) ->
  fails (parse_directives_loop fo (S n) acc) (mkTok p ty :: s)
    (EStr [PPos p; PText " parse_directives(): expected identifier or block close but got "; PTok ty]).
Proof.
  intros H pre. eexists. cbn [parse_directives_loop]. erewrite tryb_Ok by apply peek_pm. cbn [tok_ty tok_pos].
  destruct ty as [w|i|x|w| |]; try reflexivity. elim (H w eq_refl).
Qed.
Lemma loop_body_ok n s d r : length s < S n -> directive fo s d r ->
  runs (parse_directive_body fo (parse_directives_loop fo n [])) s (Ok d) r.
Proof.
  intros Hl Hd. eapply body_ok with (n := n); eauto.
  intros s0 ds r0 H0 Hds. exact (proj1 (dirs_main fo n s0 H0) ds r0 [] Hds).
Qed.

Lemma dir_errors :
  (forall s m, dir_error fo s m -> forall block,
     (forall s' e, length s' < length s -> (forall n acc, length s' < n -> fails (parse_directives_loop fo n acc) s' e) ->
        fails block s' e) ->
     fails (parse_directive_body fo block) s (EStr m)) /\
  (forall s m, dirs_error fo s m -> forall n acc, length s < n -> fails (parse_directives_loop fo n acc) s (EStr m)).
Proof.
  assert (S1 : forall s m, string_error s m -> fails (@parse_string F) s (EStr m)) by apply string_error_fails.
  set (P := fun s m => forall block,
     (forall s' e, length s' < length s -> (forall n acc, length s' < n -> fails (parse_directives_loop fo n acc) s' e) ->
        fails block s' e) ->
     fails (parse_directive_body fo block) s (EStr m)).
  set (Q := fun s m => forall n acc, length s < n -> fails (parse_directives_loop fo n acc) s (EStr m)).
  assert (PQ : forall s m, P s m -> (exists p id s', s = mkTok p (TIdent id) :: s' /\ is_closer id = false) -> Q s m).
  { intros s m HP (p & id & s' & -> & Hc) n acc Hn. destruct n as [|n]; [lia|]. apply loop_fails; [assumption|].
    eapply fails_tryb. apply HP. intros s1 e Hlt Hf. apply Hf. cbn [length] in *; lia. }
  assert (C1 : forall p id mkD s m, struct_kw (F := F) id mkD -> string_error s m -> P (mkTok p (TIdent id) :: s) m).
  { intros p id mkD s m Hk He block _. unfold parse_directive_body.
    eapply fails_tryb_ok; [apply runs_pos|]. cbn [tok_pos]. eapply fails_tryb_ok; [apply id_ok|].
    apply S1 in He. destruct Hk; pick_kw; (eapply fails_tryb; unfold parse_struct; eapply fails_tryb; exact He). }
  assert (C2 : forall p s m, string_error s m -> P (mkTok p (TIdent (s2l "Include")) :: s) m).
  { intros p s m He block _. unfold parse_directive_body.
    eapply fails_tryb_ok; [apply runs_pos|]. cbn [tok_pos]. eapply fails_tryb_ok; [apply id_ok|]. pick_kw.
    eapply fails_tryb. now apply S1. }
  assert (C3 : forall p s m, string_error s m -> P (mkTok p (TIdent (s2l "Texture")) :: s) m).
  { intros p s m He block _. unfold parse_directive_body.
    eapply fails_tryb_ok; [apply runs_pos|]. cbn [tok_pos]. eapply fails_tryb_ok; [apply id_ok|]. pick_kw.
    eapply fails_tryb. now apply S1. }
  assert (C4 : forall p q w s m, string_error s m ->
     P (mkTok p (TIdent (s2l "Texture")) :: mkTok q (TStr w) :: s) m).
  { intros p q w s m He block _. unfold parse_directive_body.
    eapply fails_tryb_ok; [apply runs_pos|]. cbn [tok_pos]. eapply fails_tryb_ok; [apply id_ok|]. pick_kw.
    eapply fails_tryb_ok; [apply str_ok|]. eapply fails_tryb. now apply S1. }
  assert (C5 : forall p q w q' w' s m, string_error s m ->
     P (mkTok p (TIdent (s2l "Texture")) :: mkTok q (TStr w) :: mkTok q' (TStr w') :: s) m).
  { intros p q w q' w' s m He block _. unfold parse_directive_body.
    eapply fails_tryb_ok; [apply runs_pos|]. cbn [tok_pos]. eapply fails_tryb_ok; [apply id_ok|]. pick_kw.
    eapply fails_tryb_ok; [apply str_ok|]. eapply fails_tryb_ok; [apply str_ok|]. eapply fails_tryb. now apply S1. }
  assert (C6 : forall p id mkB s m, block_kw (F := F) id mkB -> dirs_error fo s m -> Q s m -> P (mkTok p (TIdent id) :: s) m).
  { intros p id mkB s m Hk He HQ block Hb. unfold parse_directive_body.
    eapply fails_tryb_ok; [apply runs_pos|]. cbn [tok_pos]. eapply fails_tryb_ok; [apply id_ok|].
    assert (R : fails block s (EStr m)) by (apply Hb; [cbn [length]; lia|exact HQ]).
    destruct Hk; pick_kw; (eapply fails_tryb; exact R). }
  assert (C7 : forall p id s, ~ In id closers -> ~ In id dir_keywords ->
     P (mkTok p (TIdent id) :: s) [PPos p; PText " parse_directive(): unknown identifier "; PStr id]).
  { intros p id s Hc Hid block _. unfold parse_directive_body.
    eapply fails_tryb_ok; [apply runs_pos|]. cbn [tok_pos]. eapply fails_tryb_ok; [apply id_ok|].
    apply not_in_false in Hid. repeat (match goal with H : Forall _ (_ :: _) |- _ => inversion H; clear H; subst end).
    repeat match goal with H : str_eqb id _ = false |- _ => rewrite H; clear H end. apply fails_ret. }
  assert (C8 : forall p ty s, (forall w, ty <> TIdent w) ->
     Q (mkTok p ty :: s) [PPos p; PText " parse_directives(): expected identifier or block close but got "; PTok ty]).
  { intros p ty s Hty n acc Hn. destruct n as [|n]; [lia|]. now apply loop_token. }
  assert (C9 : forall s p' ty r, stuck s (mkTok p' ty :: r) -> (forall w, ty <> TIdent w) ->
     Q s [PPos p'; PText " parse_directives(): expected identifier or block close but got "; PTok ty]).
  { intros s p' ty r Hst Hty n acc Hn. destruct (stuck_ident _ _ Hst) as (p & id & s' & -> & Hc).
    destruct n as [|n]; [lia|]. apply loop_fails; [assumption|].
    destruct (dstuck_runs (parse_directives_loop fo n []) _ _ Hst) as [d R]. eapply fails_tryb_ok; [exact R|].
    apply stuck_len in Hst. destruct n as [|n]; [cbn [length] in *; lia|]. now apply loop_token. }
  assert (C10 : forall s m, dir_error fo s m -> P s m -> Q s m).
  { intros s m He HP. apply PQ; [assumption|]. eapply dir_error_ident; eauto. }
  assert (C11 : forall s d s' m, directive fo s d s' -> dirs_error fo s' m -> Q s' m -> Q s m).
  { intros s d s' m Hd _ HQ n acc Hn. destruct n as [|n]; [lia|].
    destruct (directive_ident _ _ _ _ Hd) as (p & id & s1 & -> & Hc). apply loop_fails; [assumption|].
    pose proof (directive_less _ _ _ _ Hd) as Hlt.
    eapply fails_tryb_ok; [apply loop_body_ok; eassumption|]. apply HQ. cbn [length] in *; lia. }
  assert (C9a : forall p id mkD q w s l p' ty r, struct_kw (F := F) id mkD -> params_run fo s l (mkTok p' ty :: r) ->
     (forall w, ty <> TIdent w) -> Q (mkTok p (TIdent id) :: mkTok q (TStr w) :: s)
       [PPos p'; PText " parse_directives(): expected identifier or block close but got "; PTok ty]).
  { intros p id mkD q w s l p' ty r Hk Hl Hty. eapply C9; [left; exists p, id, mkD, q, w, s, l; eauto|assumption]. }
  assert (C9b : forall p q1 w1 q2 w2 q3 w3 s l p' ty r, params_run fo s l (mkTok p' ty :: r) -> (forall w, ty <> TIdent w) ->
     Q (mkTok p (TIdent (s2l "Texture")) :: mkTok q1 (TStr w1) :: mkTok q2 (TStr w2) :: mkTok q3 (TStr w3) :: s)
       [PPos p'; PText " parse_directives(): expected identifier or block close but got "; PTok ty]).
  { intros p q1 w1 q2 w2 q3 w3 s l p' ty r Hl Hty. eapply C9; [right; exists p, q1, w1, q2, w2, q3, w3, s, l; eauto|assumption]. }
  split; [apply (dir_error_mut F fo P Q)|apply (dirs_error_mut F fo P Q)];
    first [exact C1|exact C2|exact C3|exact C4|exact C5|exact C6|exact C7|exact C8|exact C9a|exact C9b|exact C10|exact C11].
Qed.

Lemma dirs_total s : (exists ds r, directives fo s ds r) \/ dirs_eof fo s \/ exists m, dirs_error fo s m.
Proof.
  remember (length s) as n eqn:Hn. revert s Hn. induction n as [n IH] using lt_wf_ind. intros s Hn.
  destruct s as [|[p ty] s]; [right; left; constructor|].
  assert (D : (exists id, ty = TIdent id) \/ forall w, ty <> TIdent w).
  { destruct ty as [w|i|x|w| |]; try (right; congruence). left; eauto. }
  destruct D as [[id ->]|D].
  2: { right; right. eexists. now apply dirs_token. }
  destruct (in_dec (list_eq_dec N.eq_dec) id closers) as [Hc|Hc].
  { left. do 2 eexists. now apply ds_close. }
  assert (Next : forall d r, directive fo (mkTok p (TIdent id) :: s) d r ->
    (exists ds r, directives fo (mkTok p (TIdent id) :: s) ds r) \/ dirs_eof fo (mkTok p (TIdent id) :: s) \/
    exists m, dirs_error fo (mkTok p (TIdent id) :: s) m).
  { intros d r Hd. pose proof (directive_less _ _ _ _ Hd) as Hlt.
    destruct (IH (length r)) with (s := r) as [(ds & r' & Hds)|[He|[m He]]]; [lia|reflexivity| | |].
    - left. do 2 eexists. eapply ds_cons; eauto.
    - right; left. eapply dse_cons; eauto.
    - right; right. exists m. eapply dirs_cons; eauto. }
  assert (Here : forall m, dir_error fo (mkTok p (TIdent id) :: s) m ->
    (exists ds r, directives fo (mkTok p (TIdent id) :: s) ds r) \/ dirs_eof fo (mkTok p (TIdent id) :: s) \/
    exists m, dirs_error fo (mkTok p (TIdent id) :: s) m).
  { intros m He. right; right. exists m. now apply dirs_here. }
  assert (Struct : forall mkD, struct_kw (F := F) id mkD ->
    (exists ds r, directives fo (mkTok p (TIdent id) :: s) ds r) \/ dirs_eof fo (mkTok p (TIdent id) :: s) \/
    exists m, dirs_error fo (mkTok p (TIdent id) :: s) m).
  { intros mkD Hk. destruct (string_cases s) as [(q & w & s' & ->)|[m He]].
    - destruct (params_run_total fo s') as (l & r & Hl). destruct (quiet_dec r) as [Hq|Hq].
      + eapply Next. eapply di_struct; [exact Hk|]. eapply params_run_params; eauto.
      + right; right. destruct (not_quiet _ Hq) as (p' & ty & r' & -> & Hty). eexists. eapply dirs_stuck; eauto.
    - eapply Here. eapply dir_struct; eauto. }
  assert (Block : forall mkB, block_kw (F := F) id mkB ->
    (exists ds r, directives fo (mkTok p (TIdent id) :: s) ds r) \/ dirs_eof fo (mkTok p (TIdent id) :: s) \/
    exists m, dirs_error fo (mkTok p (TIdent id) :: s) m).
  { intros mkB Hk. destruct (IH (length s)) with (s := s) as [(ds & r' & Hds)|[He|[m He]]]; [cbn [length] in Hn; lia|reflexivity| | |].
    - eapply Next. eapply di_block; eauto.
    - right; left. apply dse_in. econstructor; eauto.
    - eapply Here. eapply dir_block; eauto. }
  destruct (in_dec (list_eq_dec N.eq_dec) id dir_keywords) as [Hin|Hout].
  2: { eapply Here. now apply dir_unknown. }
  unfold dir_keywords in Hin. cbn [map In] in Hin.
  destruct Hin as [<-|[<-|[<-|[<-|[<-|[<-|[<-|[<-|[<-|[]]]]]]]]]];
    try (eapply Struct; constructor); try (eapply Block; constructor).
  - destruct (string_cases s) as [(q & w & s' & ->)|[m He]].
    + eapply Next. apply di_include.
    + eapply Here. apply dir_include. exact He.
  - destruct (string_cases s) as [(q1 & w1 & s1 & ->)|[m He]]; [|eapply Here; apply dir_texture1; exact He].
    destruct (string_cases s1) as [(q2 & w2 & s2 & ->)|[m He]]; [|eapply Here; apply dir_texture2; exact He].
    destruct (string_cases s2) as [(q3 & w3 & s3 & ->)|[m He]]; [|eapply Here; apply dir_texture3; exact He].
    destruct (params_run_total fo s3) as (l & r & Hl). destruct (quiet_dec r) as [Hq|Hq].
    + eapply Next. eapply di_texture. eapply params_run_params; eauto.
    + right; right. destruct (not_quiet _ Hq) as (p' & ty & r' & -> & Hty). eexists. eapply dirs_stuck_texture; eauto.
Qed.

(** ** Scenes *)
Lemma parse_tokens_error s m : scene_error fo s m -> parse_tokens fo s = Done (Err (EStr m)).
Proof.
  intros H.
  assert (R : fails (pres <-? parse_predirectives_loop fo (pr_fuel (pm [] s)) [] ;; d <-? parse_directive fo ;; ret (Ok (pres, d))) s (EStr m)).
  { destruct H as [s m Hp|s pres s' m Hp Hd].
    - eapply fails_tryb. apply pres_error_fails; [assumption|]. apply fuel_pm.
    - destruct (pre_main fo _ s (fuel_pm [] s)) as (H1 & _ & _).
      eapply fails_tryb_ok; [exact (H1 pres s' [] Hp)|]. eapply fails_tryb. unfold parse_directive.
      eapply (proj1 dir_errors); [exact Hd|]. intros s1 e _ Hf pre. unfold parse_directives, bind at 1, get.
      apply Hf. apply fuel_pm. }
  destruct (R []) as (st & R'). change (pm [] s) with (mkPr s 0) in R' at 2.
  unfold parse_tokens, parse_tokens_m.
  unfold tryb at 1, bind at 1, parse_predirectives, bind at 1, get. unfold tryb at 1, bind at 1 in R'.
  change (pr_fuel (mkPr s 0)) with (pr_fuel (pm [] s)). now rewrite R'.
Qed.
Lemma scene_cases s : (exists x, scene fo s x) \/ scene_eof fo s \/ exists m, scene_error fo s m.
Proof.
  destruct (pres_total s) as [(pres & r & Hp)|[He|[m He]]].
  - destruct (predirectives_world _ _ _ _ Hp) as (p & s' & ->).
    destruct (dirs_total s') as [(ds & r' & Hds)|[Hds|[m Hds]]].
    + left. eexists. econstructor; [exact Hp|]. apply (di_block fo p _ DWorld); [constructor|exact Hds].
    + right; left. eapply se_world; [exact Hp|]. econstructor; [constructor|exact Hds].
    + right; right. exists m. eapply sce_world; [exact Hp|]. eapply dir_block; [constructor|exact Hds].
  - right; left. now apply se_pre.
  - right; right. exists m. now apply sce_pre.
Qed.
Lemma parse_tokens_error_iff s m : parse_tokens fo s = Done (Err (EStr m)) <-> scene_error fo s m.
Proof.
  split; [|apply parse_tokens_error]. intros H.
  destruct (scene_cases s) as [[x Hs]|[Hs|[m' Hs]]].
  - apply parse_tokens_ok in Hs. congruence.
  - apply parse_tokens_eof in Hs. congruence.
  - pose proof (parse_tokens_error _ _ Hs) as H'. rewrite H in H'. injection H' as ->. exact Hs.
Qed.
End Syn.
