(** The parser model against the token grammar: values and parameters. *)
From Verif Require Import Base TokModel ParModel SceneSpec SynErrSpec TokProofs.
Open Scope mon_scope.

(** ** Strings *)
Lemma str_eqb_eq a b : str_eqb a b = true <-> a = b.
Proof.
  revert b; induction a as [|x a IH]; intros [|y b]; cbn; split; intros H; try discriminate; try reflexivity.
  - apply andb_true_iff in H as [H1 H2]. apply N.eqb_eq in H1. apply IH in H2. congruence.
  - injection H as -> ->. rewrite N.eqb_refl. now apply IH.
Qed.
Lemma str_eqb_refl a : str_eqb a a = true. Proof. now apply str_eqb_eq. Qed.
Lemma str_eqb_neq a b : str_eqb a b = false <-> a <> b.
Proof. rewrite <- str_eqb_eq. now destruct (str_eqb a b). Qed.

(** ** Header words *)
Lemma split_ws_blank cur a s : blanks a -> a <> [] -> cur <> [] ->
  split_ws_from cur (a ++ s) = cur :: split_ws_from [] (a ++ s).
Proof.
  intros Ha Hne Hc. destruct a as [|c a]; [congruence|]. inversion Ha as [|? ? H ?]; subst. cbn [app split_ws_from].
  rewrite H. destruct cur; [congruence|reflexivity].
Qed.
Lemma split_ws_skip a s : blanks a -> split_ws_from [] (a ++ s) = split_ws_from [] s.
Proof. induction 1 as [|c a H Ha IH]; cbn [app split_ws_from]; [reflexivity|]. now rewrite H. Qed.
Lemma split_ws_word cur w s : Forall (fun c => is_whitespace c = false) w ->
  split_ws_from cur (w ++ s) = split_ws_from (cur ++ w) s.
Proof.
  intros H; revert cur; induction H as [|c w H Hw IH]; intros cur; cbn [app split_ws_from]; [now rewrite app_nil_r|].
  rewrite H, IH. now rewrite <- app_assoc.
Qed.
Lemma header_split h ty name : header h ty name -> split_whitespace h = [ty; name].
Proof.
  intros ([Hty Wty] & [Hn Wn] & a & b & c & Ha & Hb & Hbn & Hc & ->).
  unfold split_whitespace. rewrite split_ws_skip by assumption. rewrite split_ws_word by assumption. cbn [app].
  rewrite split_ws_blank by assumption. rewrite split_ws_skip by assumption.
  rewrite split_ws_word by assumption. cbn [app]. f_equal.
  destruct c as [|x c]; [destruct name; [congruence|reflexivity]|].
  rewrite <- (app_nil_r (x :: c)). rewrite split_ws_blank by (assumption || congruence).
  rewrite split_ws_skip by assumption. reflexivity.
Qed.

(** every output of [split_ws_from] and how it came about *)
Lemma span_ws s : exists a r, s = a ++ r /\ blanks a /\ match r with [] => True | c :: _ => is_whitespace c = false end.
Proof. exact (span_pred is_whitespace s). Qed.
Lemma span_word s : exists w r, s = w ++ r /\ Forall (fun c => is_whitespace c = false) w /\
                                match r with [] => True | c :: _ => is_whitespace c = true end.
Proof.
  destruct (span_pred (fun c => negb (is_whitespace c)) s) as (a & b & -> & Ha & Hb). exists a, b.
  split; [reflexivity|]. split.
  - eapply Forall_impl; [|exact Ha]. cbn. intros c. now destruct (is_whitespace c).
  - destruct b; [exact I|]. cbn in Hb. now destruct (is_whitespace n).
Qed.
Lemma split_ws_all_blank s : split_ws_from [] s = [] -> blanks s.
Proof.
  destruct (span_ws s) as (a & r & -> & Ha & Hr). rewrite split_ws_skip by assumption.
  destruct r as [|c r]; [now rewrite app_nil_r|]. destruct (span_word (c :: r)) as (w & r' & He & Hw & Hr').
  rewrite He. rewrite split_ws_word by assumption. cbn [app].
  destruct w as [|x w].
  { cbn in He. subst r'. congruence. }
  destruct r' as [|y r']; [discriminate|]. cbn [split_ws_from]. rewrite Hr'. discriminate.
Qed.
Lemma split_next s w ws : split_ws_from [] s = w :: ws ->
  exists a r, s = a ++ w ++ r /\ blanks a /\ word w /\ split_ws_from [] r = ws /\
              match r with [] => True | c :: _ => is_whitespace c = true end.
Proof.
  destruct (span_ws s) as (a & r & -> & Ha & Hr). rewrite split_ws_skip by assumption.
  destruct r as [|c r]; [discriminate|]. destruct (span_word (c :: r)) as (w' & r' & He & Hw & Hr').
  rewrite He. rewrite split_ws_word by assumption. cbn [app].
  destruct w' as [|x w'].
  { cbn in He. subst r'. congruence. }
  destruct r' as [|y r'].
  - cbn [split_ws_from]. intros [= <- <-]. exists a, []. repeat split; auto. discriminate.
  - cbn [split_ws_from]. rewrite Hr'. intros [= <- <-]. exists a, (y :: r'). repeat split; auto; try discriminate.
    cbn [split_ws_from]. now rewrite Hr'.
Qed.
Lemma split_header h ty name : split_whitespace h = [ty; name] -> header h ty name.
Proof.
  unfold split_whitespace. intros H. apply split_next in H as (a & r & -> & Ha & Hty & H & Hr).
  apply split_next in H as (b & c & -> & Hb & Hn & H & Hc). apply split_ws_all_blank in H.
  split; [assumption|]. split; [assumption|]. exists a, b, c. repeat split; auto.
  intros ->. cbn in Hr. destruct Hn as [Hn Hw]. destruct name; [congruence|]. inversion Hw; subst. cbn in Hr. congruence.
Qed.
Lemma header_det h ty name ty' name' : header h ty name -> header h ty' name' -> ty = ty' /\ name = name'.
Proof. intros H H'. apply header_split in H, H'. rewrite H in H'. injection H' as -> ->. auto. Qed.

Section Par.
Context {F : Type} (fo : FloatOps F).
Notation toks := (list (Token F)).
Notation PM A := (M (@parser F) (result A (error F))).
Notation spectrum_fail := (SynErrSpec.spectrum_fail fo).
Notation value_fail := (SynErrSpec.value_fail fo).
Notation param_fail := (SynErrSpec.param_fail fo).
Notation params_run := (SynErrSpec.params_run fo).

(** Parser with [pre] already consumed and [s] remaining. *)
Definition pm (pre s : toks) : parser := mkPr (pre ++ s) (length pre).

Lemma pr_empty_pm pre s : pr_is_empty (pm pre s) = match s with [] => true | _ => false end.
Proof.
  unfold pr_is_empty, pm; cbn [pr_tokens pr_index]. rewrite app_length.
  destruct s; cbn [length]; [apply Nat.leb_le|apply Nat.leb_gt]; lia.
Qed.
Lemma peek_pm pre t s : pr_peek (pm pre (t :: s)) = Done (Ok t, pm pre (t :: s)).
Proof.
  unfold pr_peek. rewrite pr_empty_pm. cbn [negb]. unfold pm at 1 2; cbn [pr_tokens pr_index].
  now rewrite nth_error_mid.
Qed.
Lemma peek_pm_nil pre : pr_peek (pm pre []) = Done (Err EEof, pm pre []).
Proof. unfold pr_peek. now rewrite pr_empty_pm. Qed.
Lemma next_pm pre t s : pr_next (pm pre (t :: s)) = Done (Ok t, pm (pre ++ [t]) s).
Proof.
  unfold pr_next. rewrite pr_empty_pm. unfold pm at 1 2; cbn [pr_tokens pr_index].
  rewrite nth_error_mid. unfold pm; cbn [pr_tokens pr_index]. rewrite app_length, <- app_assoc. reflexivity.
Qed.
Lemma pos_pm pre t s : pr_pos (pm pre (t :: s)) = Done (Ok (tok_pos t), pm pre (t :: s)).
Proof.
  unfold pr_pos. replace (length (pr_tokens (pm pre (t :: s))) <=? pr_index (pm pre (t :: s))) with false.
  - unfold pm at 1 2; cbn [pr_tokens pr_index]. now rewrite nth_error_mid.
  - symmetry. apply Nat.leb_gt. unfold pm; cbn [pr_tokens pr_index]. rewrite app_length. cbn; lia.
Qed.
Lemma pos_pm_nil pre : pr_pos (pm pre []) = Done (Err EEof, pm pre []).
Proof.
  unfold pr_pos. replace (length (pr_tokens (pm pre [])) <=? pr_index (pm pre [])) with true; [reflexivity|].
  symmetry. apply Nat.leb_le. unfold pm; cbn [pr_tokens pr_index]. rewrite app_nil_r. lia.
Qed.

(** [runs p s a r]: started in front of [s], [p] returns [a] and stops in front of [r]. *)
Definition runs {A} (p : M (@parser F) A) (s : toks) (a : A) (r : toks) : Prop :=
  forall pre, exists c, s = c ++ r /\ p (pm pre s) = Done (a, pm (pre ++ c) r).

Lemma runs_det {A} (p : M (@parser F) A) s a r a' r' : runs p s a r -> runs p s a' r' -> a = a' /\ r = r'.
Proof.
  intros H H'. destruct (H []) as (c & E & R). destruct (H' []) as (c' & E' & R').
  rewrite R in R'. injection R' as -> _ Hl. split; [reflexivity|].
  rewrite E' in E. assert (Hc : length c = length c') by (cbn in Hl; lia).
  revert E Hc. clear. revert c'. induction c as [|x c IH]; intros [|y c'] E Hc; cbn in *; try lia; [auto|].
  injection E as _ E. eapply IH; eauto.
Qed.
Lemma runs_len {A} (p : M (@parser F) A) s a r : runs p s a r -> length r <= length s.
Proof. intros H. destruct (H []) as (c & E & R). rewrite E, app_length. lia. Qed.

Lemma runs_ret {A} (a : A) s : runs (ret a) s a s.
Proof. intros pre. exists []. rewrite (app_nil_r pre). auto. Qed.
Lemma runs_bind {A B} (p : M (@parser F) A) (k : A -> M (@parser F) B) s a s' b r :
  runs p s a s' -> runs (k a) s' b r -> runs (bind p k) s b r.
Proof.
  intros Hp Hk pre. destruct (Hp pre) as (c & -> & R). destruct (Hk (pre ++ c)) as (d & -> & R').
  exists (c ++ d). split; [now rewrite app_assoc|]. erewrite bind_Done by exact R. rewrite R'. now rewrite app_assoc.
Qed.
Lemma runs_tryb {A B} (p : PM A) (k : A -> PM B) s a s' b r :
  runs p s (Ok a) s' -> runs (k a) s' b r -> runs (tryb p k) s b r.
Proof. intros H H'. unfold tryb. eapply runs_bind; [exact H|exact H']. Qed.
Lemma runs_tryb_err {A B} (p : PM A) (k : A -> PM B) s e s' :
  runs p s (Err e) s' -> runs (tryb p k) s (Err e) s'.
Proof. intros H. unfold tryb. eapply runs_bind; [exact H|]. apply runs_ret. Qed.
Lemma runs_peek t s : runs pr_peek (t :: s) (Ok t) (t :: s).
Proof. intros pre. exists []. rewrite (app_nil_r pre). split; [reflexivity|apply peek_pm]. Qed.
Lemma runs_peek_nil : runs pr_peek [] (Err EEof) [].
Proof. intros pre. exists []. rewrite (app_nil_r pre). split; [reflexivity|apply peek_pm_nil]. Qed.
Lemma runs_next t s : runs pr_next (t :: s) (Ok t) s.
Proof. intros pre. exists [t]. split; [reflexivity|apply next_pm]. Qed.
Lemma runs_pos t s : runs pr_pos (t :: s) (Ok (tok_pos t)) (t :: s).
Proof. intros pre. exists []. rewrite (app_nil_r pre). split; [reflexivity|apply pos_pm]. Qed.
Lemma runs_vidx {A} (v : list A) i a s : nth_error v i = Some a -> runs (vidx v i) s a s.
Proof. intros H. unfold vidx. rewrite H. apply runs_ret. Qed.

(** What is needed of an element parser and its specification. *)
Record item_spec {T} (p : PM T) (item : toks -> T -> toks -> Prop) : Prop := {
  is_ok : forall s v r, item s v r -> runs p s (Ok v) r;
  is_err : forall s, no_item item s -> exists m, runs p s (Err (EStr m)) s;
  is_dec : forall s, (exists v r, item s v r) \/ no_item item s;
  is_less : forall s v r, item s v r -> length r < length s;
  is_quiet : forall s, quiet s -> no_item item s;
  is_rbrack : forall q s, no_item item (mkTok q TRBracket :: s);
  is_lbrack : forall q s, no_item item (mkTok q TLBracket :: s)
}.

Ltac peek_tok := eapply runs_bind; [first [apply runs_peek | apply runs_peek_nil]|]; cbv iota beta; cbn [tok_ty tok_pos].
Ltac fin := match goal with |- runs (ret _) _ _ _ => apply runs_ret end.

Lemma int_spec : item_spec parse_int int_item.
Proof.
  constructor.
  - intros s v r []. unfold parse_int. peek_tok. eapply runs_bind; [apply runs_next|]. fin.
  - intros s H. unfold parse_int. destruct s as [|[p [w|i|x|w| |]] s]; try (eexists; peek_tok; fin).
    exfalso. eapply H. constructor.
  - intros [|[p [w|i|x|w| |]] s]; try (right; intros v r H; inversion H; fail). left. do 2 eexists. constructor.
  - intros s v r []. cbn. lia.
  - intros [|[p [w|i|x|w| |]] s]; cbn; try tauto; intros _ v r H; inversion H.
  - intros q s v r H; inversion H.
  - intros q s v r H; inversion H.
Qed.
Lemma str_spec : item_spec parse_string str_item.
Proof.
  constructor.
  - intros s v r []. unfold parse_string. peek_tok. eapply runs_bind; [apply runs_next|]. fin.
  - intros s H. unfold parse_string. destruct s as [|[p [w|i|x|w| |]] s]; try (eexists; peek_tok; fin).
    exfalso. eapply H. constructor.
  - intros [|[p [w|i|x|w| |]] s]; try (right; intros v r H; inversion H; fail). left. do 2 eexists. constructor.
  - intros s v r []. cbn. lia.
  - intros [|[p [w|i|x|w| |]] s]; cbn; try tauto; intros _ v r H; inversion H.
  - intros q s v r H; inversion H.
  - intros q s v r H; inversion H.
Qed.
Lemma bool_spec : item_spec parse_bool bool_item.
Proof.
  constructor.
  - intros s v r []; unfold parse_bool; peek_tok.
    + rewrite str_eqb_refl. eapply runs_tryb; [apply runs_next|]. fin.
    + change (str_eqb (s2l "false") (s2l "true")) with false. rewrite str_eqb_refl.
      eapply runs_tryb; [apply runs_next|]. fin.
  - intros s H. unfold parse_bool. destruct s as [|[p [w|i|x|w| |]] s]; try (eexists; peek_tok; fin).
    destruct (str_eqb w (s2l "true")) eqn:E1; [apply str_eqb_eq in E1; subst; exfalso; eapply H; constructor|].
    destruct (str_eqb w (s2l "false")) eqn:E2; [apply str_eqb_eq in E2; subst; exfalso; eapply H; constructor|].
    eexists. peek_tok. rewrite E1, E2. fin.
  - intros [|[p [w|i|x|w| |]] s]; try (right; intros v r H; inversion H; fail).
    destruct (str_eqb w (s2l "true")) eqn:E1; [apply str_eqb_eq in E1; subst; left; do 2 eexists; constructor|].
    destruct (str_eqb w (s2l "false")) eqn:E2; [apply str_eqb_eq in E2; subst; left; do 2 eexists; constructor|].
    apply str_eqb_neq in E1, E2. right. intros v r H. inversion H; subst; [apply E1|apply E2]; reflexivity.
  - intros s v r []; cbn; lia.
  - intros [|[p [w|i|x|w| |]] s]; cbn; try tauto; intros _ v r H; inversion H.
  - intros q s v r H; inversion H.
  - intros q s v r H; inversion H.
Qed.
Lemma float_spec : item_spec (parse_float fo) (float_item fo).
Proof.
  constructor.
  - intros s v r []; unfold parse_float; peek_tok; (eapply runs_tryb; [apply runs_next|]; fin).
  - intros s H. unfold parse_float. destruct s as [|[p [w|i|x|w| |]] s]; try (eexists; peek_tok; fin);
      exfalso; eapply H; constructor.
  - intros [|[p [w|i|x|w| |]] s]; try (right; intros v r H; inversion H; fail); left; do 2 eexists; constructor.
  - intros s v r []; cbn; lia.
  - intros [|[p [w|i|x|w| |]] s]; cbn; try tauto; intros _ v r H; inversion H.
  - intros q s v r H; inversion H.
  - intros q s v r H; inversion H.
Qed.

Lemma item_det {T} (p : PM T) item : item_spec p item -> forall s v r v' r', item s v r -> item s v' r' -> v = v' /\ r = r'.
Proof.
  intros H s v r v' r' Hi Hi'. destruct (runs_det _ _ _ _ _ _ (is_ok _ _ H _ _ _ Hi) (is_ok _ _ H _ _ _ Hi')) as [E ->].
  injection E as ->. auto.
Qed.

(** ** Exactly [n] values *)
Lemma n_items_items {T} (item : toks -> T -> toks -> Prop) n s (vs : list T) r : n_items item (S n) s vs r -> items item s vs r.
Proof.
  revert s vs; induction n as [|n IH]; intros s vs H.
  - inversion H as [|? ? v s' vs' ? Hi Hn]; subst. inversion Hn; subst. now constructor.
  - inversion H as [|? ? v s' vs' ? Hi Hn]; subst. eapply it_more; eauto.
Qed.
Lemma items_n_items {T} (item : toks -> T -> toks -> Prop) s vs r : items item s vs r -> n_items item (length vs) s vs r.
Proof. induction 1; cbn [length]; econstructor; eauto. constructor. Qed.
Lemma n_items_len {T} (item : toks -> T -> toks -> Prop) n s vs r : n_items item n s vs r -> length vs = n.
Proof. induction 1; cbn; congruence. Qed.

Section Lists.
Context {T : Type} (p : PM T) (item : toks -> T -> toks -> Prop) (H : item_spec p item) (name : string).
Notation list_fail := (SynErrSpec.list_fail item).
Notation one_fail := (SynErrSpec.one_fail item).
Notation n_fail := (SynErrSpec.n_fail item).

Lemma parse_n_loop_ok n st k s vs r : n_items item k s vs r ->
  forall acc, runs (parse_n_loop p n name st k acc) s (Ok (acc ++ vs)) r.
Proof.
  induction 1 as [s|k s v s' vs r Hi Hn IH]; intros acc; cbn [parse_n_loop].
  - rewrite app_nil_r. fin.
  - eapply runs_bind; [eapply (is_ok _ _ H); eassumption|]. cbv iota.
    specialize (IH (acc ++ [v])). now rewrite <- app_assoc in IH.
Qed.
Lemma parse_n_ok n s vs r : n_items item (S n) s vs r -> runs (parse_n p (S n) name) s (Ok vs) r.
Proof.
  intros Hn pre. unfold parse_n. cbn [Nat.ltb Nat.leb]. unfold bind at 1, get.
  exact (parse_n_loop_ok (S n) (pr_index (pm pre s)) (S n) s vs r Hn [] pre).
Qed.
Lemma parse_n_err n s : no_n item (S n) s -> exists m, runs (parse_n p (S n) name) s (Err (EStr m)) s.
Proof.
  intros Hno.
  (* the message does not depend on what was consumed; find it from any start *)
  assert (Hm : exists m, forall pre, parse_n p (S n) name (pm pre s) = Done (Err (EStr m), pm pre s)).
  { unfold parse_n. cbn [Nat.ltb Nat.leb]. unfold bind at 1, get.
    assert (G : forall k s acc, no_n item k s -> exists m, forall pre0 s0 c, s0 = c ++ s ->
       parse_n_loop p (S n) name (length pre0) k acc (pm (pre0 ++ c) s) = Done (Err (EStr m), pm pre0 s0)).
    { clear s Hno. induction k as [|k IH]; intros s acc Hno.
      - exfalso. eapply Hno. constructor.
      - cbn [parse_n_loop]. destruct (is_dec _ _ H s) as [(v & s' & Hi)|Hi].
        + destruct (IH s' (acc ++ [v])) as [m Hm].
          { intros vs r Hn. eapply Hno. econstructor; eauto. }
          exists m. intros pre0 s0 c Hc.
          destruct (is_ok _ _ H _ _ _ Hi (pre0 ++ c)) as (d & E & R). erewrite bind_Done by exact R. cbv iota beta.
          rewrite <- app_assoc. apply Hm. subst s. now rewrite <- app_assoc.
        + destruct (is_err _ _ H _ Hi) as [m R]. eexists. intros pre0 s0 c Hc. destruct (R (pre0 ++ c)) as (d & E & R').
          erewrite bind_Done by exact R'. cbv iota beta. unfold bind, set_index, ret. cbn.
          assert (d = []) by (apply (f_equal (@length _)) in E; rewrite app_length in E; destruct d; [reflexivity|cbn in E; lia]).
          subst d. unfold pm. rewrite Hc, app_nil_r, <- app_assoc. reflexivity. }
    destruct (G (S n) s [] Hno) as [m Hm]. exists m. intros pre.
    specialize (Hm pre s [] eq_refl). rewrite app_nil_r in Hm. exact Hm. }
  destruct Hm as [m Hm]. exists m. intros pre. exists []. rewrite (app_nil_r pre). auto.
Qed.
Lemma n_items_dec n s : (exists vs r, n_items item n s vs r) \/ no_n item n s.
Proof.
  revert s; induction n as [|n IH]; intros s; [left; do 2 eexists; constructor|].
  destruct (is_dec _ _ H s) as [(v & s' & Hi)|Hi].
  - destruct (IH s') as [(vs & r & Hn)|Hn]; [left; do 2 eexists; econstructor; eauto|].
    right. intros vs r Hx. inversion Hx as [|? ? v' s'' vs' ? Hi' Hn']; subst.
    destruct (item_det _ _ H _ _ _ _ _ Hi Hi') as [<- <-]. exact (Hn _ _ Hn').
  - right. intros vs r Hx. inversion Hx as [|? ? v' s'' vs' ? Hi' Hn']; subst. exact (Hi _ _ Hi').
Qed.

(** ** One or more values *)
Lemma items_dec : forall s, (exists vs r, items item s vs r /\ no_item item r) \/ no_item item s.
Proof.
  intros s. remember (length s) as n eqn:Hn. revert s Hn. induction n as [n IH] using lt_wf_ind. intros s Hn.
  destruct (is_dec _ _ H s) as [(v & s' & Hi)|Hi]; [left|now right].
  destruct (IH (length s')) with (s := s') as [(vs & r & Hv & Hr)|Hr]; [|reflexivity| |].
  - subst n. eapply is_less; eauto.
  - exists (v :: vs), r. split; [eapply it_more; eauto|assumption].
  - exists [v], s'. split; [now constructor|assumption].
Qed.
Lemma items_less s vs r : items item s vs r -> length r < length s.
Proof. induction 1 as [s v r Hi|s v s' vs r Hi Hv IH]; apply (is_less _ _ H) in Hi; lia. Qed.

Lemma parse_many_loop_ok s vs r : items item s vs r -> no_item item r ->
  forall fuel acc, length s < fuel -> runs (parse_many_loop p name fuel acc) s (Ok (acc ++ vs)) r.
Proof.
  intros Hv Hr. induction Hv as [s v r Hi|s v s' vs r Hi Hv IH]; intros fuel acc Hf;
    (destruct fuel as [|fuel]; [lia|]); cbn [parse_many_loop]; pose proof (is_less _ _ H _ _ _ Hi) as Hl.
  - eapply runs_bind; [eapply (is_ok _ _ H); eassumption|]. cbv iota. destruct fuel as [|fuel]; [lia|].
    cbn [parse_many_loop]. destruct (is_err _ _ H _ Hr) as [m R]. eapply runs_bind; [exact R|]. cbv iota.
    destruct (acc ++ [v]) eqn:E; [now destruct acc|]. fin.
  - eapply runs_bind; [eapply (is_ok _ _ H); eassumption|]. cbv iota.
    specialize (IH Hr fuel (acc ++ [v]) ltac:(lia)). now rewrite <- app_assoc in IH.
Qed.
Lemma parse_many_ok s vs r : items item s vs r -> no_item item r -> runs (parse_many p name) s (Ok vs) r.
Proof.
  intros Hv Hr pre. unfold parse_many, bind at 1, get.
  apply (parse_many_loop_ok s vs r Hv Hr (pr_fuel (pm pre s)) []).
  unfold pr_fuel, pm; cbn [pr_tokens]. rewrite app_length. lia.
Qed.
Lemma parse_many_err s : no_item item s -> exists m, runs (parse_many p name) s (Err (EStr m)) s.
Proof.
  intros Hs. destruct (is_err _ _ H _ Hs) as [m R]. eexists. intros pre. unfold parse_many, bind at 1, get.
  unfold pr_fuel. cbn [parse_many_loop]. destruct (R pre) as (c & E & R').
  exists c. split; [exact E|]. erewrite bind_Done by exact R'. reflexivity.
Qed.

(** ** Bracketed lists *)
Lemma items_ne s vs r : items item s vs r -> vs <> [].
Proof. now intros []. Qed.

Lemma parse_list_ok s vs r : bracketed item s vs r -> runs (parse_list p name) s (Ok vs) r.
Proof.
  intros [q s' vs' q' r' Hv]. unfold parse_list. peek_tok. eapply runs_bind; [apply runs_next|].
  eapply runs_tryb; [apply (parse_many_ok _ _ _ Hv); apply (is_rbrack _ _ H)|]. peek_tok.
  destruct vs' as [|v vs']; [elim (items_ne _ _ _ Hv eq_refl)|].
  eapply runs_tryb; [apply runs_next|]. fin.
Qed.
Lemma parse_list_err s r : list_fail s r -> exists m, runs (parse_list p name) s (Err (EStr m)) r.
Proof.
  intros [s' Hs|q s' Hs|q s' vs r' Hv Hr Hs]; unfold parse_list.
  - destruct s' as [|[q [w|i|x|w| |]] s']; try (eexists; peek_tok; fin). elim (Hs q s' eq_refl).
  - destruct (parse_many_err s' Hs) as [m R]. eexists. peek_tok. eapply runs_bind; [apply runs_next|].
    eapply runs_tryb_err. exact R.
  - pose proof (parse_many_ok _ _ _ Hv Hr) as R.
    destruct r' as [|[q' [w|i|x|w| |]] r']; try (eexists; peek_tok; eapply runs_bind; [apply runs_next|];
      eapply runs_tryb; [exact R|]; peek_tok; fin).
    elim (Hs q' r' eq_refl).
Qed.
Lemma list_dec s : (exists vs r, bracketed item s vs r) \/ exists r, list_fail s r.
Proof.
  destruct s as [|[q [w|i|x|w| |]] s]; try (right; eexists; apply lf_none; congruence).
  destruct (items_dec s) as [(vs & r & Hv & Hr)|Hs].
  - destruct r as [|[q' [w|i|x|w| |]] r']; try (right; eexists; eapply lf_close; [eassumption|assumption|congruence]).
    left. do 2 eexists. econstructor. eassumption.
  - right. eexists. now apply lf_first.
Qed.

Lemma one_or_list_ok s vs r : one_or_list item s vs r -> runs (parse_one_or_list p name) s (Ok vs) r.
Proof.
  intros [s' v r' Hi|s' vs' r' Hb]; unfold parse_one_or_list.
  - pose proof (is_ok _ _ H _ _ _ Hi) as R.
    destruct s' as [|[q [w|i|x|w| |]] s']; try (peek_tok; eapply runs_tryb; [exact R|]; fin).
    + apply (is_quiet _ _ H [] I) in Hi. tauto.
    + apply (is_lbrack _ _ H) in Hi. tauto.
  - pose proof (parse_list_ok _ _ _ Hb) as R. destruct Hb. peek_tok. exact R.
Qed.
Lemma one_or_list_err s r : one_fail s r -> exists m, runs (parse_one_or_list p name) s (Err (EStr m)) r.
Proof.
  intros [s' Hq Hs|q s' r' Hl]; unfold parse_one_or_list.
  - destruct (is_err _ _ H _ Hs) as [m R].
    destruct s' as [|[q [w|i|x|w| |]] s']; try (eexists; peek_tok; eapply runs_tryb_err; exact R).
    + eexists. peek_tok. fin.
    + elim (Hq q s' eq_refl).
  - destruct (parse_list_err _ _ Hl) as [m R]. eexists. peek_tok. exact R.
Qed.
Lemma one_or_list_dec s : (exists vs r, one_or_list item s vs r) \/ exists r, one_fail s r.
Proof.
  destruct (list_dec s) as [(vs & r & Hb)|[r Hl]]; [left; do 2 eexists; eapply ol_list; eauto|].
  destruct (is_dec _ _ H s) as [(v & r' & Hi)|Hi]; [left; do 2 eexists; eapply ol_one; exact Hi|]. right.
  destruct s as [|[q [w|i|x|w| |]] s]; try (eexists; apply of_one; [congruence|exact Hi]).
  eexists; apply of_list; eassumption.
Qed.

Lemma list_of_n_ok n s vs r : bracketed item s vs r -> length vs = S n ->
  runs (parse_list_of_n p (S n) name) s (Ok vs) r.
Proof.
  intros [q s' vs' q' r' Hv] Hn. unfold parse_list_of_n. peek_tok. eapply runs_bind; [apply runs_next|].
  apply items_n_items in Hv. rewrite Hn in Hv.
  eapply runs_tryb; [apply (parse_n_ok _ _ _ _ Hv)|]. peek_tok.
  destruct vs' as [|v vs']; [discriminate|].
  eapply runs_tryb; [apply runs_next|]. fin.
Qed.
Lemma list_of_n_err n s r : n_fail n s r -> exists m, runs (parse_list_of_n p (S n) name) s (Err (EStr m)) r.
Proof.
  intros [s' Hs|q s' Hs|q s' vs r' Hv Hs]; unfold parse_list_of_n.
  - destruct s' as [|[q [w|i|x|w| |]] s']; try (eexists; peek_tok; fin). elim (Hs q s' eq_refl).
  - destruct (parse_n_err n s' Hs) as [m R]. eexists. peek_tok. eapply runs_bind; [apply runs_next|].
    eapply runs_tryb_err. exact R.
  - pose proof (parse_n_ok _ _ _ _ Hv) as R.
    destruct r' as [|[q' [w|i|x|w| |]] r']; try (eexists; peek_tok; eapply runs_bind; [apply runs_next|];
      eapply runs_tryb; [exact R|]; peek_tok; fin).
    elim (Hs q' r' eq_refl).
Qed.
Lemma list_of_n_dec n s : (exists vs r, bracketed item s vs r /\ length vs = S n) \/ exists r, n_fail n s r.
Proof.
  destruct s as [|[q [w|i|x|w| |]] s]; try (right; eexists; apply nf_none; congruence).
  destruct (n_items_dec (S n) s) as [(vs & r & Hv)|Hs].
  - destruct r as [|[q' [w|i|x|w| |]] r']; try (right; eexists; eapply nf_close; [eassumption|congruence]).
    left. do 2 eexists. split; [econstructor; eapply n_items_items; eassumption|]. eapply n_items_len; eauto.
  - right. eexists. now apply nf_few.
Qed.

Lemma items_det s vs r vs' r' : items item s vs r -> items item s vs' r' -> no_item item r -> no_item item r' ->
  vs = vs' /\ r = r'.
Proof.
  intros Hv; revert vs' r'; induction Hv as [s v r Hi|s v s' vs r Hi Hv IH]; intros vs' r' Hv' Hr Hr'.
  - inversion Hv' as [? ? ? Hi'|? ? ? ? ? Hi' Hv'']; subst; destruct (item_det _ _ H _ _ _ _ _ Hi Hi') as [<- <-]; [auto|].
    exfalso. inversion Hv''; subst; eapply Hr; eauto.
  - inversion Hv' as [? ? ? Hi'|? ? ? ? ? Hi' Hv'']; subst; destruct (item_det _ _ H _ _ _ _ _ Hi Hi') as [<- <-].
    + exfalso. inversion Hv; subst; eapply Hr'; eauto.
    + destruct (IH _ _ Hv'' Hr Hr') as [<- <-]. auto.
Qed.

(** A list abandoned in front of an identifier or the end. *)
Lemma list_fail_quiet s r : list_fail s r -> quiet r ->
  r = s \/ (exists q, s = mkTok q TLBracket :: r) \/
  exists q s' vs, s = mkTok q TLBracket :: s' /\ items item s' vs r.
Proof. intros [] Hr; eauto 8. Qed.
Lemma quiet_not_rbrack (r : toks) q s' : quiet r -> r <> mkTok q TRBracket :: s'.
Proof. now intros Hr ->. Qed.
Lemma quiet_not_lbrack (r : toks) q s' : quiet r -> r <> mkTok q TLBracket :: s'.
Proof. now intros Hr ->. Qed.
Lemma list_fail_open q s vs r : items item s vs r -> quiet r -> list_fail (mkTok q TLBracket :: s) r.
Proof.
  intros Hv Hr. eapply lf_close; [eassumption|now apply (is_quiet _ _ H)|]. intros. now apply quiet_not_rbrack.
Qed.
Lemma list_fail_empty q r : quiet r -> list_fail (mkTok q TLBracket :: r) r.
Proof. intros Hr. apply lf_first. now apply (is_quiet _ _ H). Qed.
Lemma list_fail_none r : quiet r -> list_fail r r.
Proof. intros Hr. apply lf_none. intros. now apply quiet_not_lbrack. Qed.
Lemma one_fail_quiet s r : one_fail s r -> quiet r ->
  r = s \/ (exists q, s = mkTok q TLBracket :: r) \/
  exists q s' vs, s = mkTok q TLBracket :: s' /\ items item s' vs r.
Proof. intros [|q s' r' Hl] Hr; [auto|]. exact (list_fail_quiet _ _ Hl Hr). Qed.
Lemma one_fail_none r : quiet r -> one_fail r r.
Proof. intros Hr. apply of_one; [intros; now apply quiet_not_lbrack|now apply (is_quiet _ _ H)]. Qed.
Lemma n_fail_quiet n s r : n_fail n s r -> quiet r ->
  r = s \/ (exists q, s = mkTok q TLBracket :: r) \/
  exists q s' vs, s = mkTok q TLBracket :: s' /\ items item s' vs r /\ length vs = S n.
Proof.
  intros [] Hr; [eauto|eauto|]. right; right. do 3 eexists. split; [reflexivity|].
  split; [eapply n_items_items; eauto|eapply n_items_len; eauto].
Qed.
Lemma n_fail_none n r : quiet r -> n_fail n r r.
Proof. intros Hr. apply nf_none. intros. now apply quiet_not_lbrack. Qed.
Lemma n_fail_empty n q r : quiet r -> n_fail n (mkTok q TLBracket :: r) r.
Proof.
  intros Hr. apply nf_few. intros vs r' Hn. inversion Hn; subst. eapply (is_quiet _ _ H); eauto.
Qed.
Lemma n_fail_open n q s vs r : items item s vs r -> length vs = S n -> quiet r -> n_fail n (mkTok q TLBracket :: s) r.
Proof.
  intros Hv Hn Hr. apply items_n_items in Hv. rewrite Hn in Hv. eapply nf_close; [eassumption|].
  intros. now apply quiet_not_rbrack.
Qed.

End Lists.

(** ** Pairs *)
Lemma point2_spec : item_spec (parse_point2f fo) (point2_item fo).
Proof.
  pose proof float_spec as Hf. constructor.
  - intros s v r [s0 a s' b r' H1 H2]. unfold parse_point2f.
    eapply runs_tryb; [apply (parse_n_ok _ _ Hf); econstructor; [exact H1|]; econstructor; [exact H2|]; constructor|].
    eapply runs_bind; [apply runs_vidx; reflexivity|]. eapply runs_bind; [apply runs_vidx; reflexivity|]. fin.
  - intros s Hno. destruct (parse_n_err _ _ Hf "float" 1 s) as [m R].
    + intros vs r Hn. inversion Hn as [|? ? a s' vs' ? H1 Hn']; subst. inversion Hn' as [|? ? b s'' vs'' ? H2 Hn'']; subst.
      eapply Hno. econstructor; eauto.
    + exists m. unfold parse_point2f. eapply runs_tryb_err. exact R.
  - intros s. destruct (n_items_dec _ _ Hf 2 s) as [(vs & r & Hn)|Hn].
    + left. inversion Hn as [|? ? a s' vs' ? H1 Hn']; subst. inversion Hn' as [|? ? b s'' vs'' ? H2 Hn'']; subst.
      do 2 eexists. econstructor; eauto.
    + right. intros v r Hx. inversion Hx; subst. eapply Hn. econstructor; [eauto|]. econstructor; [eauto|constructor].
  - intros s v r []. apply (is_less _ _ Hf) in H, H0. lia.
  - intros s Hq v r Hx. inversion Hx; subst. eapply (is_quiet _ _ Hf); eauto.
  - intros q s v r Hx. inversion Hx; subst. eapply (is_rbrack _ _ Hf); eauto.
  - intros q s v r Hx. inversion Hx; subst. eapply (is_lbrack _ _ Hf); eauto.
Qed.
Lemma vector2_spec : item_spec (parse_vector2f fo) (vector2_item fo).
Proof.
  pose proof float_spec as Hf. constructor.
  - intros s v r [s0 a s' b r' H1 H2]. unfold parse_vector2f.
    eapply runs_tryb; [apply (parse_n_ok _ _ Hf); econstructor; [exact H1|]; econstructor; [exact H2|]; constructor|].
    eapply runs_bind; [apply runs_vidx; reflexivity|]. eapply runs_bind; [apply runs_vidx; reflexivity|]. fin.
  - intros s Hno. destruct (parse_n_err _ _ Hf "float" 1 s) as [m R].
    + intros vs r Hn. inversion Hn as [|? ? a s' vs' ? H1 Hn']; subst. inversion Hn' as [|? ? b s'' vs'' ? H2 Hn'']; subst.
      eapply Hno. econstructor; eauto.
    + exists m. unfold parse_vector2f. eapply runs_tryb_err. exact R.
  - intros s. destruct (n_items_dec _ _ Hf 2 s) as [(vs & r & Hn)|Hn].
    + left. inversion Hn as [|? ? a s' vs' ? H1 Hn']; subst. inversion Hn' as [|? ? b s'' vs'' ? H2 Hn'']; subst.
      do 2 eexists. econstructor; eauto.
    + right. intros v r Hx. inversion Hx; subst. eapply Hn. econstructor; [eauto|]. econstructor; [eauto|constructor].
  - intros s v r []. apply (is_less _ _ Hf) in H, H0. lia.
  - intros s Hq v r Hx. inversion Hx; subst. eapply (is_quiet _ _ Hf); eauto.
  - intros q s v r Hx. inversion Hx; subst. eapply (is_rbrack _ _ Hf); eauto.
  - intros q s v r Hx. inversion Hx; subst. eapply (is_lbrack _ _ Hf); eauto.
Qed.

(** ** Spectra *)
Lemma chunks2_unpair {A} (l : list (A * A)) : chunks2 (unpair l) = Done l.
Proof. induction l as [|[a b] l IH]; cbn; [reflexivity|]. now rewrite IH. Qed.
Lemma unpair_even {A} (l : list (A * A)) : Nat.odd (length (unpair l)) = false.
Proof. induction l as [|[a b] l IH]; cbn; [reflexivity|]. exact IH. Qed.
Lemma even_unpair {A} (l : list A) : Nat.odd (length l) = false -> exists l', l = unpair l'.
Proof.
  remember (length l) as n eqn:Hn. revert l Hn. induction n as [n IH] using lt_wf_ind. intros l Hn Ho.
  destruct l as [|a [|b l]]; [exists []; reflexivity|subst; discriminate|].
  destruct (IH (length l)) with (l := l) as [l' ->]; subst; auto; [cbn; lia|]. exists ((a, b) :: l'). reflexivity.
Qed.
Lemma mod2_odd n : negb (Nat.eqb (Nat.modulo n 2) 0) = Nat.odd n.
Proof. rewrite <- Nat.bit0_mod, Nat.bit0_odd. now destruct (Nat.odd n). Qed.

Lemma spectrum_list_ok s l r : bracketed (float_item fo) s (unpair l) r -> runs (parse_spectrum fo) s (Ok (SpSpectrum l)) r.
Proof.
  intros Hb. pose proof (parse_list_ok _ _ float_spec "float" _ _ _ Hb) as R. unfold parse_spectrum.
  inversion Hb; subst. peek_tok. eapply runs_tryb; [exact R|]. rewrite mod2_odd, unpair_even.
  eapply runs_bind; [|apply runs_ret]. unfold lift. rewrite chunks2_unpair. apply runs_ret.
Qed.
Lemma spectrum_file_ok s w r : str_item s w r -> runs (parse_spectrum fo) s (Ok (SpFile w)) r.
Proof. intros []. unfold parse_spectrum. peek_tok. eapply runs_tryb; [apply runs_next|]. fin. Qed.
Lemma spectrum_err s r : spectrum_fail s r -> exists m, runs (parse_spectrum fo) s (Err (EStr m)) r.
Proof.
  intros [s' Hs Hn|q s' r' Hl|s' l r' Hb Ho]; unfold parse_spectrum.
  - destruct s' as [|[q [w|i|x|w| |]] s']; try (eexists; peek_tok; fin).
    + exfalso. eapply Hn. constructor.
    + elim (Hs q s' eq_refl).
  - destruct (parse_list_err _ _ float_spec "float" _ _ Hl) as [m R]. eexists. peek_tok. eapply runs_tryb_err. exact R.
  - pose proof (parse_list_ok _ _ float_spec "float" _ _ _ Hb) as R. inversion Hb; subst. eexists. peek_tok.
    eapply runs_tryb; [exact R|]. rewrite mod2_odd, Ho. fin.
Qed.
Lemma spectrum_dec s : (exists l r, bracketed (float_item fo) s (unpair l) r) \/ (exists w r, str_item s w r) \/
  exists r, spectrum_fail s r.
Proof.
  destruct (list_dec _ _ float_spec s) as [(vs & r & Hb)|[r Hl]].
  - destruct (Nat.odd (length vs)) eqn:Ho.
    + right; right. eexists. eapply sf_odd; eauto.
    + apply even_unpair in Ho as [l ->]. left. eauto.
  - right. destruct (is_dec _ _ str_spec s) as [(w & r' & Hw)|Hw]; [left; eauto|right].
    destruct s as [|[q [w|i|x|w| |]] s]; try (eexists; apply sf_none; [congruence|exact Hw]).
    eexists. apply sf_list. exact Hl.
Qed.

(** ** Parameters *)
#[local] Hint Constructors value SynErrSpec.value_fail open_items : parspec.

(** Filing a parameter, as the model does. *)
Definition push (ps : ParamSet F) (i : pitem) : ParamSet F :=
  match pi_val i with
  | VInts l => ps_push_int ps (mkParam (pi_name i) (pi_pos i) l)
  | VFloats l => ps_push_float ps (mkParam (pi_name i) (pi_pos i) l)
  | VPoints l => ps_push_point2 ps (mkParam (pi_name i) (pi_pos i) l)
  | VVectors l => ps_push_vector2 ps (mkParam (pi_name i) (pi_pos i) l)
  | VBools l => ps_push_bool ps (mkParam (pi_name i) (pi_pos i) l)
  | VStrings l => ps_push_string ps (mkParam (pi_name i) (pi_pos i) l)
  | VSpectrum s => ps_push_spectrum ps (mkParam (pi_name i) (pi_pos i) [s])
  | VTexture s => ps_push_texture ps (mkParam (pi_name i) (pi_pos i) [s])
  end.

Ltac pick_type := repeat (first
  [ rewrite str_eqb_refl
  | match goal with |- context [str_eqb (s2l ?a) (s2l ?b)] => change (str_eqb (s2l a) (s2l b)) with false end ]; cbv iota).

Lemma param_ok s i r : param fo s i r -> forall ps, runs (parse_param_list fo ps) s (Ok (push ps i)) r.
Proof.
  intros [p h ty name s' v r' Hh Hv] ps. apply header_split in Hh. unfold parse_param_list. peek_tok. rewrite Hh.
  destruct Hv; pick_type; (eapply runs_tryb; [apply runs_next|]).
  all: try (eapply runs_tryb; [eapply one_or_list_ok; [first [apply int_spec|apply float_spec|apply bool_spec|apply str_spec]|eassumption]|]; fin).
  all: try (eapply runs_tryb; [eapply parse_list_ok; [first [apply point2_spec|apply vector2_spec]|eassumption]|]; fin).
  all: try (eapply runs_tryb; [eapply list_of_n_ok; [apply float_spec|eassumption|reflexivity]|];
            repeat (eapply runs_bind; [apply runs_vidx; reflexivity|]); fin).
  - eapply runs_tryb; [apply spectrum_list_ok; eassumption|]. fin.
  - eapply runs_tryb; [apply spectrum_file_ok; eassumption|]. fin.
  - eapply runs_tryb; [eapply (is_ok _ _ str_spec); eassumption|]. fin.
Qed.

Lemma known_cases ty : known ty -> ty = s2l "integer" \/ ty = s2l "float" \/ ty = s2l "point2" \/ ty = s2l "vector2" \/
  ty = s2l "bool" \/ ty = s2l "string" \/ ty = s2l "rgb" \/ ty = s2l "xyz" \/ ty = s2l "spectrum" \/
  ty = s2l "blackbody" \/ ty = s2l "texture".
Proof. unfold known, known_types. cbn [map In]. intuition (subst; auto 20). Qed.
Lemma known_dec ty : known ty \/ ~ known ty.
Proof. destruct (in_dec (list_eq_dec N.eq_dec) ty known_types); auto. Qed.

Lemma param_err s r : param_fail s r -> exists m, forall ps, runs (parse_param_list fo ps) s (Err (EStr m)) r.
Proof.
  intros [s' Hs|p h s' Hh|p h ty name s' Hh Hk|p h ty name s' r' Hh Hv].
  - destruct s' as [|[q [w|i|x|w| |]] s']; try (eexists; intros ps; unfold parse_param_list; peek_tok; fin).
    elim (Hs q w s' eq_refl).
  - destruct (split_whitespace h) as [|a [|b [|c l]]] eqn:E;
      try (eexists; intros ps; unfold parse_param_list; peek_tok; rewrite E; fin).
    apply split_header in E. elim (Hh _ _ E).
  - apply header_split in Hh. eexists; intros ps; unfold parse_param_list. peek_tok. rewrite Hh.
    repeat match goal with |- context [str_eqb ty (s2l ?b)] =>
      let E := fresh in destruct (str_eqb ty (s2l b)) eqn:E;
        [apply str_eqb_eq in E; exfalso; apply Hk; subst ty; unfold known, known_types; cbn [map In]; tauto|] end.
    fin.
  - apply header_split in Hh.
    destruct Hv.
    all: try (match goal with Hf : one_fail _ _ _ |- _ =>
      eapply one_or_list_err in Hf; [destruct Hf as [m R]|first [apply int_spec|apply float_spec|apply bool_spec|apply str_spec]] end;
      exists m; intros ps; unfold parse_param_list; peek_tok; rewrite Hh; pick_type;
      (eapply runs_tryb; [apply runs_next|]); eapply runs_tryb_err; exact R).
    all: try (match goal with Hf : list_fail _ _ _ |- _ =>
      eapply parse_list_err in Hf; [destruct Hf as [m R]|first [apply point2_spec|apply vector2_spec]] end;
      exists m; intros ps; unfold parse_param_list; peek_tok; rewrite Hh; pick_type;
      (eapply runs_tryb; [apply runs_next|]); eapply runs_tryb_err; exact R).
    all: try (match goal with Hf : n_fail _ _ _ _ |- _ =>
      eapply list_of_n_err in Hf; [destruct Hf as [m R]|apply float_spec] end;
      exists m; intros ps; unfold parse_param_list; peek_tok; rewrite Hh; pick_type;
      (eapply runs_tryb; [apply runs_next|]); eapply runs_tryb_err; exact R).
    + destruct (spectrum_err _ _ H) as [m R]. exists m; intros ps; unfold parse_param_list; peek_tok; rewrite Hh; pick_type.
      (eapply runs_tryb; [apply runs_next|]); eapply runs_tryb_err; exact R.
    + destruct (is_err _ _ str_spec _ H) as [m R]. exists m; intros ps; unfold parse_param_list; peek_tok; rewrite Hh; pick_type.
      (eapply runs_tryb; [apply runs_next|]); eapply runs_tryb_err; exact R.
Qed.

Lemma value_dec ty s : known ty -> (exists v r, value fo ty s v r) \/ exists r, value_fail ty s r.
Proof.
  intros Hk. apply known_cases in Hk.
  assert (N : forall n, (exists vs r, bracketed (float_item fo) s vs r /\ length vs = S n) \/ exists r, n_fail (float_item fo) n s r)
    by (intros; apply (list_of_n_dec _ _ float_spec)).
  destruct Hk as [->|[->|[->|[->|[->|[->|[->|[->|[->|[->| ->]]]]]]]]]].
  - destruct (one_or_list_dec _ _ int_spec s) as [(vs & r & H)|[r H]]; [left|right]; eauto 4 with parspec.
  - destruct (one_or_list_dec _ _ float_spec s) as [(vs & r & H)|[r H]]; [left|right]; eauto 4 with parspec.
  - destruct (list_dec _ _ point2_spec s) as [(vs & r & H)|[r H]]; [left|right]; eauto 4 with parspec.
  - destruct (list_dec _ _ vector2_spec s) as [(vs & r & H)|[r H]]; [left|right]; eauto 4 with parspec.
  - destruct (one_or_list_dec _ _ bool_spec s) as [(vs & r & H)|[r H]]; [left|right]; eauto 4 with parspec.
  - destruct (one_or_list_dec _ _ str_spec s) as [(vs & r & H)|[r H]]; [left|right]; eauto 4 with parspec.
  - destruct (N 2) as [(vs & r & H & Hl)|[r H]]; [left|right; eauto 4 with parspec].
    destruct vs as [|a [|b [|c [|d vs]]]]; try discriminate. do 2 eexists. eapply va_rgb; eauto.
  - destruct (N 2) as [(vs & r & H & Hl)|[r H]]; [left|right; eauto 4 with parspec].
    destruct vs as [|a [|b [|c [|d vs]]]]; try discriminate. do 2 eexists. eapply va_xyz; eauto.
  - destruct (spectrum_dec s) as [(l & r & H)|[(w & r & H)|[r H]]]; [left|left|right]; eauto 4 with parspec.
  - destruct (N 1) as [(vs & r & H & Hl)|[r H]]; [left|right; eauto 4 with parspec].
    destruct vs as [|a [|b [|c vs]]]; try discriminate. do 2 eexists. eapply va_blackbody; eauto.
  - destruct (is_dec _ _ str_spec s) as [(w & r & H)|H]; [left|right]; eauto 4 with parspec.
Qed.

Lemma param_dec s : (exists i r, param fo s i r) \/ exists r, param_fail s r.
Proof.
  destruct s as [|[q [w|i|x|w| |]] s]; try (right; eexists; apply pf_none; congruence).
  destruct (split_whitespace w) as [|ty [|name [|c l]]] eqn:E.
  1,2,4: right; eexists; apply pf_header; intros a b Hh; apply header_split in Hh; congruence.
  apply split_header in E. destruct (known_dec ty) as [Hk|Hk].
  - destruct (value_dec ty s Hk) as [(v & r & Hv)|[r Hv]].
    + left. do 2 eexists. econstructor; eauto.
    + right. eexists. eapply pf_value; eauto.
  - right. eexists. eapply pf_type; eauto.
Qed.

Lemma value_known ty s v r : value fo ty s v r -> known ty.
Proof. intros []; unfold known, known_types; cbn [map In]; tauto. Qed.
Lemma value_fail_known ty s r : value_fail ty s r -> known ty.
Proof. intros []; unfold known, known_types; cbn [map In]; tauto. Qed.

(** Parameters that end quietly. *)
Lemma param_fail_quiet s r : param_fail s r -> quiet r -> r = s \/ dropped fo s r.
Proof.
  intros [s' Hs|p h s' Hh|p h ty name s' Hh Hk|p h ty name s' r' Hh Hv] Hr; auto. right.
  pose proof (value_fail_known _ _ _ Hv) as Hk.
  assert (Gno : r' = s' -> dropped fo (mkTok p (TStr h) :: s') r') by (intros ->; eapply dr_no_value; eauto).
  assert (Gem : ty <> s2l "texture" -> (exists q, s' = mkTok q TLBracket :: r') -> dropped fo (mkTok p (TStr h) :: s') r')
    by (intros Ht (q & ->); eapply dr_empty; eauto).
  assert (Gop : forall q s'', s' = mkTok q TLBracket :: s'' -> open_items fo ty s'' r' -> dropped fo (mkTok p (TStr h) :: s') r')
    by (intros q s'' -> Ho; eapply dr_open; eauto).
  destruct Hv.
  all: try (match goal with Hf : one_fail _ _ _ |- _ => apply one_fail_quiet in Hf; [|assumption] end;
    match goal with Hf : _ \/ _ \/ _ |- _ => destruct Hf as [Hf|[Hf|(q & s'' & vs & He & Hi)]];
      [now apply Gno|apply Gem; [discriminate|assumption]|eapply Gop; [eassumption|eauto 4 with parspec]] end).
  all: try (match goal with Hf : list_fail _ _ _ |- _ => apply list_fail_quiet in Hf; [|assumption] end;
    match goal with Hf : _ \/ _ \/ _ |- _ => destruct Hf as [Hf|[Hf|(q & s'' & vs & He & Hi)]];
      [now apply Gno|apply Gem; [discriminate|assumption]|eapply Gop; [eassumption|eauto 4 with parspec]] end).
  all: try (match goal with Hf : n_fail _ _ _ _ |- _ => apply n_fail_quiet in Hf; [|assumption] end;
    match goal with Hf : _ \/ _ \/ _ |- _ => destruct Hf as [Hf|[Hf|(q & s'' & vs & He & Hi & Hl)]];
      [now apply Gno|apply Gem; [discriminate|assumption]|] end;
    destruct vs as [|a [|b [|c [|d vs]]]]; try discriminate; eapply Gop; [eassumption|eauto 4 with parspec]).
  - inversion H as [s1 Hs Hn|q s1 r1 Hl|s1 l r1 Hb Ho]; subst.
    + now apply Gno.
    + apply list_fail_quiet in Hl; [|assumption]. destruct Hl as [Hf|[Hf|(q' & s'' & vs & He & Hi)]];
        [now apply Gno|apply Gem; [discriminate|assumption]|eapply Gop; [eassumption|eauto 4 with parspec]].
    + eapply dr_odd; eauto.
  - now apply Gno.
Qed.

Lemma quiet_param_fail s : quiet s -> param_fail s s.
Proof. intros H. apply pf_none. intros p h s' ->. exact H. Qed.
Lemma dropped_quiet s r : dropped fo s r -> quiet r.
Proof. now intros []. Qed.
Lemma dropped_param_fail s r : dropped fo s r -> param_fail s r.
Proof.
  intros [p h ty name r' Hh Hk Hq|p q h ty name r' Hh Hk Ht Hq|p q h ty name s' r' Hh Ho Hq|p h name s' l r' Hh Hb Ho Hq];
    eapply pf_value; eauto.
  - apply known_cases in Hk.
    pose proof (is_quiet _ _ str_spec _ Hq).
    destruct Hk as [->|[->|[->|[->|[->|[->|[->|[->|[->|[->| ->]]]]]]]]]]; constructor;
      try (apply one_fail_none with (p := parse_int); [apply int_spec|assumption]);
      try (apply one_fail_none with (p := parse_float fo); [apply float_spec|assumption]);
      try (apply one_fail_none with (p := parse_bool); [apply bool_spec|assumption]);
      try (apply one_fail_none with (p := parse_string); [apply str_spec|assumption]);
      try (now apply list_fail_none); try (now apply n_fail_none); try assumption.
    apply sf_none; [|assumption]. intros. now apply quiet_not_lbrack.
  - apply known_cases in Hk.
    destruct Hk as [->|[->|[->|[->|[->|[->|[->|[->|[->|[->| ->]]]]]]]]]]; try congruence; constructor;
      try (apply of_list);
      try (apply sf_list);
      try (apply list_fail_empty with (p := parse_int); [apply int_spec|assumption]);
      try (apply list_fail_empty with (p := parse_float fo); [apply float_spec|assumption]);
      try (apply list_fail_empty with (p := parse_bool); [apply bool_spec|assumption]);
      try (apply list_fail_empty with (p := parse_string); [apply str_spec|assumption]);
      try (apply list_fail_empty with (p := parse_point2f fo); [apply point2_spec|assumption]);
      try (apply list_fail_empty with (p := parse_vector2f fo); [apply vector2_spec|assumption]);
      try (apply n_fail_empty with (p := parse_float fo); [apply float_spec|assumption]).
  - destruct Ho; constructor;
      try (apply of_list);
      try (apply sf_list);
      try (eapply list_fail_open with (p := parse_int); [apply int_spec|eassumption|assumption]);
      try (eapply list_fail_open with (p := parse_float fo); [apply float_spec|eassumption|assumption]);
      try (eapply list_fail_open with (p := parse_bool); [apply bool_spec|eassumption|assumption]);
      try (eapply list_fail_open with (p := parse_string); [apply str_spec|eassumption|assumption]);
      try (eapply list_fail_open with (p := parse_point2f fo); [apply point2_spec|eassumption|assumption]);
      try (eapply list_fail_open with (p := parse_vector2f fo); [apply vector2_spec|eassumption|assumption]);
      try (eapply n_fail_open; [eassumption|reflexivity|assumption]).
  - constructor. eapply sf_odd; eauto.
Qed.

Lemma param_less s i r : param fo s i r -> length r < length s.
Proof.
  intros Hp. pose proof (runs_len _ _ _ _ (param_ok _ _ _ Hp ps_empty)) as Hle.
  destruct Hp as [p h ty name s' v r' Hh Hv]. cbn [length].
  cut (length r' <= length s'); [lia|].
  destruct Hv.
  all: try (match goal with Hf : one_or_list _ _ _ _ |- _ =>
     eapply one_or_list_ok with (name := EmptyString) in Hf; [exact (runs_len _ _ _ _ Hf)|first [apply int_spec|apply float_spec|apply bool_spec|apply str_spec]] end).
  all: try (match goal with Hf : bracketed _ _ _ _ |- _ =>
     eapply parse_list_ok with (name := EmptyString) in Hf; [exact (runs_len _ _ _ _ Hf)|first [apply float_spec|apply point2_spec|apply vector2_spec]] end).
  all: match goal with Hf : str_item _ _ _ |- _ => apply (is_less _ _ str_spec) in Hf; lia end.
Qed.

Lemma params_run_ok s l r : params_run s l r ->
  forall fuel ps, length s < fuel -> runs (parse_param_lists_loop fo fuel ps) s (fold_left push l ps) r.
Proof.
  induction 1 as [s r Hf|s i s' l r Hp Hl IH]; intros fuel ps Hfu; (destruct fuel as [|fuel]; [lia|]); cbn [parse_param_lists_loop fold_left].
  - destruct (param_err _ _ Hf) as [m R]. eapply runs_bind; [apply R|]. cbv iota. fin.
  - eapply runs_bind; [apply (param_ok _ _ _ Hp)|]. cbv iota. apply IH. apply param_less in Hp. lia.
Qed.
Lemma params_run_total s : exists l r, params_run s l r.
Proof.
  remember (length s) as n eqn:Hn. revert s Hn. induction n as [n IH] using lt_wf_ind. intros s Hn.
  destruct (param_dec s) as [(i & s' & Hp)|[r Hf]].
  - destruct (IH (length s')) with (s := s') as (l & r & Hl); [|reflexivity|].
    + subst n. eapply param_less; eauto.
    + do 2 eexists. eapply pr_more; eauto.
  - do 2 eexists. apply pr_end; exact Hf.
Qed.

Lemma collect_snoc l i : collect (l ++ [i]) = push (collect l) i.
Proof.
  unfold collect, push, pick. rewrite !flat_map_app. cbn [flat_map].
  destruct i as [nm p [v|v|v|v|v|v|v|v]]; cbn [pi_val pi_name pi_pos]; rewrite ?app_nil_r; reflexivity.
Qed.
Lemma fold_push l : forall l0, fold_left push l (collect l0) = collect (l0 ++ l).
Proof.
  induction l as [|i l IH]; intros l0; cbn [fold_left]; [now rewrite app_nil_r|].
  rewrite <- collect_snoc, IH. now rewrite <- app_assoc.
Qed.
Lemma param_lists_ok s l r : params_run s l r -> runs (parse_param_lists fo ps_empty) s (Ok (collect l)) r.
Proof.
  intros Hr pre. unfold parse_param_lists, bind at 1, get.
  destruct (params_run_ok _ _ _ Hr (pr_fuel (pm pre s)) (collect []) ltac:(unfold pr_fuel, pm; cbn [pr_tokens]; rewrite app_length; lia) pre)
    as (c & E & R).
  exists c. split; [exact E|]. erewrite bind_Done by exact R. rewrite fold_push. reflexivity.
Qed.

Lemma params_params_run s l r : params fo s l r -> params_run s l r.
Proof.
  induction 1 as [s Hq|s r Hd|s i s' l r Hp Hl IH].
  - apply pr_end. now apply quiet_param_fail.
  - apply pr_end. now apply dropped_param_fail.
  - eapply pr_more; eauto.
Qed.
Lemma params_quiet s l r : params fo s l r -> quiet r.
Proof. induction 1; auto. eapply dropped_quiet; eauto. Qed.
Lemma params_run_params s l r : params_run s l r -> quiet r -> params fo s l r.
Proof.
  induction 1 as [s r Hf|s i s' l r Hp Hl IH]; intros Hq.
  - apply param_fail_quiet in Hf; [|assumption]. destruct Hf as [->|Hd]; [now apply ps_end|now apply ps_drop].
  - eapply ps_cons; eauto.
Qed.

End Par.
