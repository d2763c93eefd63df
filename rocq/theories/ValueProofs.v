(** The functions that read values against their specification, errors included. *)
From Verif Require Import Base TokModel ParModel SceneSpec SynErrSpec TokProofs ParProofs ValueSpec.
Open Scope mon_scope.

Ltac peek_tok := eapply runs_bind; [first [apply runs_peek | apply runs_peek_nil]|]; cbv iota beta; cbn [tok_ty tok_pos].
Ltac fin := match goal with |- runs (ret _) _ _ _ => apply runs_ret end.
Ltac pick_type := repeat (first
  [ rewrite str_eqb_refl
  | match goal with |- context [str_eqb (s2l ?a) (s2l ?b)] => change (str_eqb (s2l a) (s2l b)) with false end ]; cbv iota).

Section Val.
Context {F : Type} (fo : FloatOps F).
Notation toks := (list (Token F)).
Notation msg := (list (piece F)).
Notation PM A := (M (@parser F) (result A (error F))).

Lemma behaves_of {T} (p : PM T) (ok : toks -> T -> toks -> Prop) (bad : toks -> error F -> toks -> Prop) :
  (forall s v r, ok s v r -> runs p s (Ok v) r) ->
  (forall s e r, bad s e r -> runs p s (Err e) r) ->
  (forall s, (exists v r, ok s v r) \/ exists e r, bad s e r) -> behaves p ok bad.
Proof.
  intros Hok Hbad Hdec pre s start.
  assert (G : forall a r, runs p s a r -> exists c, s = c ++ r /\ p start = Done (a, mkPr (pre ++ s) (length (pre ++ c)))).
  { intros a r R. destruct (R pre) as (c & E & R'). exists c. split; [exact E|].
    unfold start. change (mkPr (pre ++ s) (length pre)) with (pm pre s). rewrite R'. unfold pm. now rewrite E, app_assoc. }
  split; [|split].
  - intros v st. split.
    + intros E. destruct (Hdec s) as [(v' & r & Hv)|(e & r & He)].
      * destruct (G _ _ (Hok _ _ _ Hv)) as (c & Ec & R). rewrite R in E. injection E as <- <-. eauto 6.
      * destruct (G _ _ (Hbad _ _ _ He)) as (c & Ec & R). rewrite R in E. discriminate.
    + intros (c & r & Ec & -> & Hv). destruct (G _ _ (Hok _ _ _ Hv)) as (c' & Ec' & R). rewrite R.
      assert (c = c'); [|now subst]. apply (app_inv_tail r). congruence.
  - intros e st. split.
    + intros E. destruct (Hdec s) as [(v' & r & Hv)|(e' & r & He)].
      * destruct (G _ _ (Hok _ _ _ Hv)) as (c & Ec & R). rewrite R in E. discriminate.
      * destruct (G _ _ (Hbad _ _ _ He)) as (c & Ec & R). rewrite R in E. injection E as <- <-. eauto 6.
    + intros (c & r & Ec & -> & Hv). destruct (G _ _ (Hbad _ _ _ Hv)) as (c' & Ec' & R). rewrite R.
      assert (c = c'); [|now subst]. apply (app_inv_tail r). congruence.
  - destruct (Hdec s) as [(v' & r & Hv)|(e' & r & He)].
    + destruct (G _ _ (Hok _ _ _ Hv)) as (c & Ec & R). rewrite R. split; discriminate.
    + destruct (G _ _ (Hbad _ _ _ He)) as (c & Ec & R). rewrite R. split; discriminate.
Qed.

(** An element parser with its exact errors. *)
Record exact_spec {T} (p : PM T) (item : toks -> T -> toks -> Prop) (err : toks -> msg -> Prop) : Prop := {
  ex_item : item_spec p item;
  ex_err : forall s m, err s m -> runs p s (Err (EStr m)) s;
  ex_some : forall s, no_item item s -> exists m, err s m
}.
Lemma ex_no {T} (p : PM T) (item : toks -> T -> toks -> Prop) err : exact_spec p item err -> forall s m, err s m -> no_item item s.
Proof.
  intros H s m He v r Hi. pose proof (ex_err _ _ _ H _ _ He) as R.
  pose proof (is_ok _ _ (ex_item _ _ _ H) _ _ _ Hi) as R'. destruct (runs_det _ _ _ _ _ _ R R'). discriminate.
Qed.
Lemma ex_behaves {T} (p : PM T) (item : toks -> T -> toks -> Prop) err : exact_spec p item err -> behaves p item (stays err).
Proof.
  intros H. apply behaves_of.
  - apply (is_ok _ _ (ex_item _ _ _ H)).
  - intros s e r (m & -> & He & ->). now apply (ex_err _ _ _ H).
  - intros s. destruct (is_dec _ _ (ex_item _ _ _ H) s) as [Hi|Hi]; [now left|right].
    destruct (ex_some _ _ _ H _ Hi) as [m Hm]. exists (EStr m), s. exists m. auto.
Qed.

Lemma int_exact : exact_spec parse_int int_item int_error.
Proof.
  constructor; [apply int_spec| |].
  - intros s m [|p ty s' H]; unfold parse_int; peek_tok; [fin|]. destruct ty; try fin. now eelim H.
  - intros [|[p [w|i|x|w| |]] s] H; try (eexists; constructor; congruence). elim (H i s). constructor.
Qed.
Lemma str_exact : exact_spec parse_string str_item string_error.
Proof.
  constructor; [apply str_spec| |].
  - intros s m [|p ty s' H]; unfold parse_string; peek_tok; [fin|]. destruct ty; try fin. now eelim H.
  - intros [|[p [w|i|x|w| |]] s] H; try (eexists; constructor; congruence). elim (H w s). constructor.
Qed.
Lemma bool_exact : exact_spec parse_bool bool_item bool_error.
Proof.
  constructor; [apply bool_spec| |].
  - intros s m [|p w s' H1 H2|p ty s' H]; unfold parse_bool; peek_tok; [fin| |].
    + apply str_eqb_neq in H1, H2. rewrite H1, H2. fin.
    + destruct ty; try fin. now eelim H.
  - intros [|[p [w|i|x|w| |]] s] H; try (eexists; constructor; congruence).
    eexists. apply boe_string; intros ->; eapply H; constructor.
Qed.
Lemma float_exact : exact_spec (parse_float fo) (float_item fo) float_error.
Proof.
  constructor; [apply float_spec| |].
  - intros s m [|p ty s' H1 H2]; unfold parse_float; peek_tok; [fin|]. destruct ty; try fin; [now eelim H1|now eelim H2].
  - intros [|[p [w|i|x|w| |]] s] H; try (eexists; constructor; congruence); exfalso; eapply H; constructor.
Qed.
Lemma ident_behaves : behaves (F := F) parse_identifier ident_item (stays ident_error).
Proof.
  apply behaves_of.
  - intros s v r []. unfold parse_identifier. peek_tok. eapply runs_bind; [apply runs_next|]. fin.
  - intros s e r (m & -> & He & ->). destruct He as [|p ty s' H]; unfold parse_identifier; peek_tok; [fin|].
    destruct ty; try fin. now eelim H.
  - intros [|[p [w|i|x|w| |]] s]; try (right; do 2 eexists; eexists; repeat split; constructor; congruence).
    left. do 2 eexists. constructor.
Qed.

Section Lists.
Context {T : Type} (p : PM T) (item : toks -> T -> toks -> Prop) (err : toks -> msg -> Prop)
  (X : exact_spec p item err) (name : string).
Let H := ex_item _ _ _ X.

Lemma many_exact_ok s vs r : many_items item err s vs r -> runs (parse_many p name) s (Ok vs) r.
Proof. intros [s' vs' r' m Hv Hm]. apply (parse_many_ok _ _ H); [exact Hv|]. eapply ex_no; eauto. Qed.
Lemma many_exact_err s m : many_error err name s m -> runs (parse_many p name) s (Err (EStr m)) s.
Proof.
  intros [s' m' Hm]. intros pre. unfold parse_many, bind at 1, get.
  unfold pr_fuel. cbn [parse_many_loop]. destruct (ex_err _ _ _ X _ _ Hm pre) as (c & E & R').
  exists c. split; [exact E|]. erewrite bind_Done by exact R'. reflexivity.
Qed.
Lemma many_dec s : (exists vs r, many_items item err s vs r) \/ exists m, many_error err name s m.
Proof.
  destruct (items_dec _ _ H s) as [(vs & r & Hv & Hr)|Hs].
  - destruct (ex_some _ _ _ X _ Hr) as [m Hm]. left. do 2 eexists. econstructor; eauto.
  - destruct (ex_some _ _ _ X _ Hs) as [m Hm]. right. eexists. econstructor; eauto.
Qed.
Lemma many_behaves : behaves (parse_many p name) (many_items item err) (stays (many_error err name)).
Proof.
  apply behaves_of.
  - apply many_exact_ok.
  - intros s e r (m & -> & He & ->). now apply many_exact_err.
  - intros s. destruct (many_dec s) as [Hi|[m Hm]]; [now left|right]. exists (EStr m), s. exists m. auto.
Qed.

Lemma n_exact_err n s m : n_error item err name (S n) s m -> runs (parse_n p (S n) name) s (Err (EStr m)) s.
Proof.
  intros [k s0 vs s' m' Hk Hn Hm] pre. exists []. rewrite (app_nil_r pre). split; [reflexivity|].
  unfold parse_n. cbn [Nat.ltb Nat.leb]. unfold bind at 1, get. cbn [pr_index pm].
  assert (G : forall k s vs s', n_items item k s vs s' -> err s' m' -> forall j acc c, k < j -> s0 = c ++ s ->
     parse_n_loop p (S n) name (length pre) j acc (pm (pre ++ c) s) =
       Done (Err (EStr [PText "parse_"; PNat (S n); PText "_"; PText name; PText "s(): error while processing "; PText name; PText "s:
  "; PErrDbg (EStr m')]), pm pre s0)).
  { clear k Hk Hn s' vs Hm s m. intros k s vs s' Hn. induction Hn as [s|k s v s'' vs r Hi Hn IH]; intros Hm j acc c Hj Hc;
      (destruct j as [|j]; [lia|]); cbn [parse_n_loop].
    - destruct (ex_err _ _ _ X _ _ Hm (pre ++ c)) as (d & E & R'). erewrite bind_Done by exact R'. cbv iota beta.
      unfold bind, set_index, ret. cbn [pr_tokens pm].
      assert (d = []) by (apply (f_equal (@length _)) in E; rewrite app_length in E; destruct d; [reflexivity|cbn in E; lia]).
      subst d. unfold pm. rewrite Hc, app_nil_r, <- app_assoc. reflexivity.
    - destruct (is_ok _ _ H _ _ _ Hi (pre ++ c)) as (d & E & R). erewrite bind_Done by exact R. cbv iota beta.
      rewrite <- app_assoc. apply IH; [exact Hm|lia|]. rewrite Hc, E. now rewrite app_assoc. }
  pose proof (G _ _ _ _ Hn Hm (S n) [] [] Hk eq_refl) as R. rewrite app_nil_r in R. exact R.
Qed.
Lemma n_error_some n s : no_n item n s -> exists m, n_error item err name n s m.
Proof.
  intros Hno.
  assert (G : exists k vs s', k < n /\ n_items item k s vs s' /\ no_item item s').
  { revert s Hno. induction n as [|n IH]; intros s Hno; [elim (Hno [] s); constructor|].
    destruct (is_dec _ _ H s) as [(v & s' & Hi)|Hi].
    - destruct (IH s') as (k & vs & s'' & Hk & Hn & Hs).
      { intros vs r Hn. eapply Hno. econstructor; eauto. }
      exists (S k), (v :: vs), s''. split; [lia|]. split; [econstructor; eauto|assumption].
    - exists 0, [], s. split; [lia|]. split; [constructor|assumption]. }
  destruct G as (k & vs & s' & Hk & Hn & Hs). destruct (ex_some _ _ _ X _ Hs) as [m Hm]. eexists. econstructor; eauto.
Qed.
Lemma n_behaves n : 0 < n -> behaves (parse_n p n name) (n_items item n) (stays (n_error item err name n)).
Proof.
  intros Hn. destruct n as [|n]; [lia|]. apply behaves_of.
  - intros s v r. apply (parse_n_ok _ _ H).
  - intros s e r (m & -> & He & ->). now apply n_exact_err.
  - intros s. destruct (n_items_dec _ _ H (S n) s) as [Hi|Hi]; [now left|right].
    destruct (n_error_some _ _ Hi) as [m Hm]. exists (EStr m), s. exists m. auto.
Qed.

Lemma list_exact_err s e r : list_error item err name s e r -> runs (parse_list p name) s (Err e) r.
Proof.
  intros [|q ty s' Hs|q s' m Hm|q s' vs Hv|q s' vs q' ty r' Hv Hs]; unfold parse_list; peek_tok.
  - fin.
  - destruct ty; try fin. congruence.
  - eapply runs_bind; [apply runs_next|]. eapply runs_tryb_err. now apply many_exact_err.
  - eapply runs_bind; [apply runs_next|]. eapply runs_tryb.
    { apply (parse_many_ok _ _ H); [exact Hv|]. now apply (is_quiet _ _ H). }
    peek_tok. fin.
  - eapply runs_bind; [apply runs_next|]. eapply runs_tryb; [apply many_exact_ok; exact Hv|]. peek_tok.
    destruct ty; try fin. congruence.
Qed.
Lemma list_exact_dec s : (exists vs r, bracketed item s vs r) \/ exists e r, list_error item err name s e r.
Proof.
  destruct s as [|[q ty] s]; [right; do 2 eexists; constructor|].
  destruct ty; try (right; do 2 eexists; apply lie_open; congruence).
  destruct (many_dec s) as [(vs & r & Hv)|[m Hm]].
  - destruct r as [|[q' ty] r'].
    + right. do 2 eexists. eapply lie_unclosed. inversion Hv; subst. eassumption.
    + destruct ty; try (right; do 2 eexists; eapply lie_close; [eassumption|congruence]).
      left. do 2 eexists. econstructor. inversion Hv; subst. eassumption.
  - right. do 2 eexists. eapply lie_first; eauto.
Qed.
Lemma list_behaves : behaves (parse_list p name) (bracketed item) (list_error item err name).
Proof. apply behaves_of; [apply (parse_list_ok _ _ H)|apply list_exact_err|apply list_exact_dec]. Qed.

Lemma list_n_exact_err n s e r : list_n_error item err name (S n) s e r -> runs (parse_list_of_n p (S n) name) s (Err e) r.
Proof.
  intros [|q ty s' Hs|q s' m Hm|q s' vs Hv|q s' vs q' ty r' Hv Hs]; unfold parse_list_of_n; peek_tok.
  - fin.
  - destruct ty; try fin. congruence.
  - eapply runs_bind; [apply runs_next|]. eapply runs_tryb_err. now apply n_exact_err.
  - eapply runs_bind; [apply runs_next|]. eapply runs_tryb; [apply (parse_n_ok _ _ H); exact Hv|]. peek_tok. fin.
  - eapply runs_bind; [apply runs_next|]. eapply runs_tryb; [apply (parse_n_ok _ _ H); exact Hv|]. peek_tok.
    destruct ty; try fin. congruence.
Qed.
Lemma list_n_exact_dec n s : (exists vs r, bracketed item s vs r /\ length vs = S n) \/
  exists e r, list_n_error item err name (S n) s e r.
Proof.
  destruct s as [|[q ty] s]; [right; do 2 eexists; constructor|].
  destruct ty; try (right; do 2 eexists; apply lne_open; congruence).
  destruct (n_items_dec _ _ H (S n) s) as [(vs & r & Hv)|Hs].
  - destruct r as [|[q' ty] r'].
    + right. do 2 eexists. eapply lne_unclosed; eauto.
    + destruct ty; try (right; do 2 eexists; eapply lne_close; [eassumption|congruence]).
      left. do 2 eexists. split; [econstructor; eapply n_items_items; eassumption|]. eapply n_items_len; eauto.
  - destruct (n_error_some _ _ Hs) as [m Hm]. right. do 2 eexists. eapply lne_few; eauto.
Qed.
Lemma list_n_behaves n : 0 < n ->
  behaves (parse_list_of_n p n name) (fun s vs r => bracketed item s vs r /\ length vs = n) (list_n_error item err name n).
Proof.
  intros Hn. destruct n as [|n]; [lia|]. apply behaves_of.
  - intros s v r [Hb Hl]. now apply (list_of_n_ok _ _ H).
  - apply list_n_exact_err.
  - apply list_n_exact_dec.
Qed.

Lemma one_exact_err s e r : one_error item err name s e r -> runs (parse_one_or_list p name) s (Err e) r.
Proof.
  intros [|q s' e' r' Hl|q ty s' m Ht Hm]; unfold parse_one_or_list; peek_tok.
  - fin.
  - now apply list_exact_err.
  - pose proof (ex_err _ _ _ X _ _ Hm) as R. destruct ty; try (eapply runs_tryb_err; exact R). congruence.
Qed.
Lemma one_exact_dec s : (exists vs r, one_or_list item s vs r) \/ exists e r, one_error item err name s e r.
Proof.
  destruct (list_exact_dec s) as [(vs & r & Hb)|(e & r & Hl)]; [left; do 2 eexists; eapply ol_list; eauto|].
  destruct (is_dec _ _ H s) as [(v & r' & Hi)|Hi]; [left; do 2 eexists; eapply ol_one; exact Hi|]. right.
  destruct (ex_some _ _ _ X _ Hi) as [m Hm].
  destruct s as [|[q ty] s]; [do 2 eexists; constructor|].
  destruct ty; try (do 2 eexists; apply one_value; [congruence|exact Hm]).
  do 2 eexists. apply one_list. exact Hl.
Qed.
Lemma one_behaves : behaves (parse_one_or_list p name) (one_or_list item) (one_error item err name).
Proof. apply behaves_of; [apply (one_or_list_ok _ _ H)|apply one_exact_err|apply one_exact_dec]. Qed.
End Lists.

Lemma pair_no {T} (mk : F -> F -> T) (item : toks -> T -> toks -> Prop) :
  (forall s a s' b r, float_item fo s a s' -> float_item fo s' b r -> item s (mk a b) r) ->
  forall s, no_item item s -> exists m, pair_error fo s m.
Proof.
  intros Hmk s Hno. apply (n_error_some _ _ _ float_exact). intros vs r Hn.
  inversion Hn as [|? ? a s' vs' ? H1 Hn']; subst. inversion Hn' as [|? ? b s'' vs'' ? H2 Hn'']; subst.
  eapply Hno. eapply Hmk; eauto.
Qed.
Lemma point2_exact : exact_spec (parse_point2f fo) (point2_item fo) (pair_error fo).
Proof.
  constructor; [apply point2_spec| |].
  - intros s m Hm. unfold parse_point2f. eapply runs_tryb_err. now apply (n_exact_err _ _ _ float_exact).
  - apply (pair_no mkP2). intros; econstructor; eauto.
Qed.
Lemma vector2_exact : exact_spec (parse_vector2f fo) (vector2_item fo) (pair_error fo).
Proof.
  constructor; [apply vector2_spec| |].
  - intros s m Hm. unfold parse_vector2f. eapply runs_tryb_err. now apply (n_exact_err _ _ _ float_exact).
  - apply (pair_no mkV2). intros; econstructor; eauto.
Qed.

Lemma reader_exact T p item err : reader fo T p item err -> exact_spec p item err.
Proof. intros []; [apply int_exact|apply str_exact|apply bool_exact|apply float_exact|apply point2_exact|apply vector2_exact]. Qed.

(** ** Spectra *)
Lemma spectrum_exact_err s e r : spectrum_error fo s e r -> runs (parse_spectrum fo) s (Err e) r.
Proof.
  intros [|q ty s' H1 H2|q s' e' r' Hl|q s' l r' Hb Ho]; unfold parse_spectrum; peek_tok.
  - fin.
  - destruct ty; try fin; [now eelim H2|congruence].
  - eapply runs_tryb_err. now apply (list_exact_err _ _ _ float_exact).
  - eapply runs_tryb; [eapply parse_list_ok; [apply float_spec|exact Hb]|]. rewrite mod2_odd, Ho. fin.
Qed.
Lemma spectrum_exact_dec s : (exists v r, spectrum_item fo s v r) \/ exists e r, spectrum_error fo s e r.
Proof.
  destruct s as [|[q ty] s]; [right; do 2 eexists; constructor|].
  destruct ty; try (right; do 2 eexists; apply spe_other; congruence).
  - left. do 2 eexists. apply spi_file. constructor.
  - destruct (list_exact_dec _ _ _ float_exact "float" (mkTok q TLBracket :: s)) as [(vs & r & Hb)|(e & r & Hl)].
    + destruct (Nat.odd (length vs)) eqn:Ho.
      * right. do 2 eexists. eapply spe_odd; eauto.
      * apply even_unpair in Ho as [l ->]. left. do 2 eexists. apply spi_list. exact Hb.
    + right. do 2 eexists. apply spe_list. exact Hl.
Qed.
Lemma spectrum_behaves : behaves (parse_spectrum fo) (spectrum_item fo) (spectrum_error fo).
Proof.
  apply behaves_of; [|apply spectrum_exact_err|apply spectrum_exact_dec].
  intros s v r []; [now apply spectrum_list_ok|now apply spectrum_file_ok].
Qed.

(** ** Parameters *)
Lemma filed_push (ps : ParamSet F) i : filed ps i = push ps i.
Proof. destruct ps, i as [n q [l|l|l|l|l|l|x|x]]; reflexivity. Qed.
Lemma param_exact_err ps s e r : param_error fo s e r -> runs (parse_param_list fo ps) s (Err e) r.
Proof.
  intros [|q ty s' H|q h s' H|q h ty name s' Hh Hk|q h ty name s' e' r' Hh Hv]; unfold parse_param_list; peek_tok.
  - fin.
  - destruct ty; try fin. now eelim H.
  - destruct (split_whitespace h) as [|a [|b [|c l]]] eqn:E; try fin. apply split_header in E. elim (H _ _ E).
  - apply header_split in Hh. rewrite Hh.
    repeat match goal with |- context [str_eqb ty (s2l ?b)] =>
      let E := fresh in destruct (str_eqb ty (s2l b)) eqn:E;
        [apply str_eqb_eq in E; exfalso; apply Hk; subst ty; unfold known, known_types; cbn [map In]; tauto|] end.
    fin.
  - apply header_split in Hh. rewrite Hh.
    destruct Hv; pick_type; (eapply runs_tryb; [apply runs_next|]); eapply runs_tryb_err.
    all: try (eapply one_exact_err; [|eassumption]; first [apply int_exact|apply float_exact|apply bool_exact|apply str_exact]).
    all: try (eapply list_exact_err; [|eassumption]; first [apply point2_exact|apply vector2_exact]).
    all: try (eapply list_n_exact_err; [|eassumption]; apply float_exact).
    + now apply spectrum_exact_err.
    + now apply (ex_err _ _ _ str_exact).
Qed.
Lemma value_exact_dec ty s : known ty -> (exists v r, value fo ty s v r) \/ exists e r, value_error fo ty s e r.
Proof.
  intros Hk. apply known_cases in Hk.
  destruct Hk as [->|[->|[->|[->|[->|[->|[->|[->|[->|[->| ->]]]]]]]]]].
  - destruct (one_exact_dec _ _ _ int_exact "int" s) as [(vs & r & H)|(e & r & H)]; [left|right]; do 2 eexists; constructor; exact H.
  - destruct (one_exact_dec _ _ _ float_exact "float" s) as [(vs & r & H)|(e & r & H)]; [left|right]; do 2 eexists; constructor; exact H.
  - destruct (list_exact_dec _ _ _ point2_exact "point2f" s) as [(vs & r & H)|(e & r & H)]; [left|right]; do 2 eexists; constructor; exact H.
  - destruct (list_exact_dec _ _ _ vector2_exact "vector2f" s) as [(vs & r & H)|(e & r & H)]; [left|right]; do 2 eexists; constructor; exact H.
  - destruct (one_exact_dec _ _ _ bool_exact "bool" s) as [(vs & r & H)|(e & r & H)]; [left|right]; do 2 eexists; constructor; exact H.
  - destruct (one_exact_dec _ _ _ str_exact "string" s) as [(vs & r & H)|(e & r & H)]; [left|right]; do 2 eexists; constructor; exact H.
  - destruct (list_n_exact_dec _ _ _ float_exact "float" 2 s) as [(vs & r & H & Hl)|(e & r & H)]; [left|right; do 2 eexists; constructor; exact H].
    destruct vs as [|a [|b [|c [|d vs]]]]; try discriminate. do 2 eexists. eapply va_rgb; eauto.
  - destruct (list_n_exact_dec _ _ _ float_exact "float" 2 s) as [(vs & r & H & Hl)|(e & r & H)]; [left|right; do 2 eexists; apply vee_xyz; exact H].
    destruct vs as [|a [|b [|c [|d vs]]]]; try discriminate. do 2 eexists. eapply va_xyz; eauto.
  - destruct (spectrum_exact_dec s) as [(v & r & H)|(e & r & H)]; [left|right; do 2 eexists; constructor; exact H].
    destruct H; do 2 eexists; [eapply va_spectrum|eapply va_file]; eauto.
  - destruct (list_n_exact_dec _ _ _ float_exact "float" 1 s) as [(vs & r & H & Hl)|(e & r & H)]; [left|right; do 2 eexists; constructor; exact H].
    destruct vs as [|a [|b [|c vs]]]; try discriminate. do 2 eexists. eapply va_blackbody; eauto.
  - destruct (is_dec _ _ str_spec s) as [(w & r & H)|H]; [left; do 2 eexists; constructor; exact H|right].
    destruct (ex_some _ _ _ str_exact _ H) as [m Hm]. do 2 eexists. constructor. exact Hm.
Qed.
Lemma param_exact_dec s : (exists i r, param fo s i r) \/ exists e r, param_error fo s e r.
Proof.
  destruct s as [|[q ty] s]; [right; do 2 eexists; constructor|].
  destruct ty as [w|i|x|w| |]; try (right; do 2 eexists; apply pae_other; congruence).
  destruct (split_whitespace w) as [|ty [|name [|c l]]] eqn:E.
  1,2,4: right; do 2 eexists; apply pae_header; intros a b Hh; apply header_split in Hh; congruence.
  apply split_header in E. destruct (known_dec ty) as [Hk|Hk].
  - destruct (value_exact_dec ty s Hk) as [(v & r & Hv)|(e & r & Hv)].
    + left. do 2 eexists. econstructor; eauto.
    + right. do 2 eexists. eapply pae_value; eauto.
  - right. do 2 eexists. eapply pae_type; eauto.
Qed.
Lemma param_behaves ps : behaves (parse_param_list fo ps)
  (fun s ps' r => exists i, param fo s i r /\ ps' = filed ps i) (param_error fo).
Proof.
  apply behaves_of.
  - intros s v r (i & Hi & ->). rewrite filed_push. now apply param_ok.
  - apply param_exact_err.
  - intros s. destruct (param_exact_dec s) as [(i & r & H)|(e & r & H)]; [left; eauto|right; eauto].
Qed.
Lemma n_zero {T} (p : PM T) name st : parse_n p 0 name st = Panic.
Proof. reflexivity. Qed.
End Val.
