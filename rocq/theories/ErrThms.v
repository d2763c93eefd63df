(** Consequences of the error specifications: where the positions in error messages come from. *)
From Verif Require Import Base TokModel ParModel LexSpec LexErrSpec SceneSpec SynErrSpec TokProofs ParProofs DirProofs
  LexProofs LexThms LexErrProofs SceneThms TextThms SynErrProofs ErrSpec.

Section Err.
Context {F : Type} (fo : FloatOps F).
Notation toks := (list (Token F)).
Notation msg := (list (piece F)).

(** ** Lexical errors *)
Section Lex.
Context (cc : CharClass) (Hcc : cc_ok cc).

(** The message names a place of the text. *)
Lemma num_error_shape chk pre s m : num_error fo cc chk pre s m ->
  (exists a b, s = a ++ b /\ m = [PPos (pos_of (pre ++ a)); PText " tokenize_num(): no number"]) \/
  (exists a b, s = a ++ c_dot :: b /\
     m = [PPos (pos_of (pre ++ a)); PText " tokenize_num(): unexpected char '"; PChar c_dot; PText "'"]) \/
  conversion_text m.
Proof.
  unfold conversion_text.
  induction 1 as [pre s sg rest H|pre s sg neg body rest H|pre s sg neg body rest m H Hr Hi|pre s sg neg body rest H Hr Hf
    |pre s sg neg body dot s' m H Hb Hn IH|pre s sg neg body text e rest m H Hb Hn He Hi|pre s sg neg body dot text v rest H Hb Hn Hv Hf].
  - left. exists sg, rest. split; [|reflexivity]. rewrite (np_text _ _ _ _ _ _ _ H). reflexivity.
  - right; left. exists (sg ++ body), rest. split; [|reflexivity]. rewrite (np_text _ _ _ _ _ _ _ H). now rewrite <- app_assoc.
  - right; right. inversion Hi; subst; unfold msg_digit, msg_range; try destruct neg; auto.
  - right; right. unfold msg_float; auto.
  - pose proof (np_text _ _ _ _ _ _ _ H) as E.
    destruct IH as [(a & b & -> & ->)|[(a & b & -> & ->)|Hc]].
    + left. exists (sg ++ body ++ c_e :: a), b. rewrite E. rewrite <- !app_assoc. cbn [app].
      split; reflexivity.
    + right; left. exists (sg ++ body ++ c_e :: a), b. rewrite E. rewrite <- !app_assoc. cbn [app].
      split; reflexivity.
    + auto.
  - right; right. inversion Hi; subst; unfold msg_digit, msg_range; try destruct neg; auto.
  - right; right. unfold msg_float; auto.
Qed.

Lemma lex_error_shape chk pre s m : lex_error fo cc chk pre s m ->
  (exists a b x, s = a ++ b /\ m = [PPos (pos_of (pre ++ a)); PText x]) \/
  (exists a c b x y, s = a ++ c :: b /\ m = [PPos (pos_of (pre ++ a)); PText x; PChar c; PText y]) \/
  conversion_text m.
Proof.
  induction 1 as [pre c s m Hw He IH|pre body s m Hb He IH|pre text ty s m Hl He IH|pre s m Ht].
  - destruct IH as [(a & b & x & -> & ->)|[(a & d & b & x & y & -> & ->)|Hc]]; [| |auto].
    + left. exists (c :: a), b, x. split; [reflexivity|]. now rewrite <- app_assoc.
    + right; left. exists (c :: a), d, b, x, y. split; [reflexivity|]. now rewrite <- app_assoc.
  - destruct IH as [(a & b & x & -> & ->)|[(a & d & b & x & y & -> & ->)|Hc]]; [| |auto].
    + left. exists (c_hash :: body ++ c_lf :: a), b, x. cbn [app]. rewrite <- app_assoc. split; [reflexivity|].
      rewrite <- !app_assoc. cbn [app]. rewrite <- !app_assoc. reflexivity.
    + right; left. exists (c_hash :: body ++ c_lf :: a), d, b, x, y. cbn [app]. rewrite <- app_assoc. split; [reflexivity|].
      rewrite <- !app_assoc. cbn [app]. rewrite <- !app_assoc. reflexivity.
  - destruct IH as [(a & b & x & -> & ->)|[(a & d & b & x & y & -> & ->)|Hc]]; [| |auto].
    + left. exists (text ++ a), b, x. now rewrite !app_assoc.
    + right; left. exists (text ++ a), d, b, x, y. now rewrite !app_assoc.
  - destruct Ht as [pre c s Hs|pre s Ho|pre s Ho|pre c s m Hc Hn].
    + right; left. exists [], c, s. do 2 eexists. rewrite app_nil_r. eauto.
    + left. exists (c_quote :: s), []. eexists. rewrite app_nil_r. eauto.
    + left. exists (c_quote :: s), [c_bslash]. eexists. eauto.
    + destruct (num_error_shape _ _ _ _ Hn) as [(a & b & -> & ->)|[(a & b & -> & ->)|Hc']]; [| |auto].
      * left. eauto 10.
      * right; left. exists a, c_dot, b. eauto.
Qed.

Lemma lexical_position chk input p m : tokenize fo cc chk input = Done (Err (EStr (PPos p :: m))) ->
  exists a b, lf_text input (a ++ b) /\ p = pos_of a.
Proof.
  intros H. apply (proj1 (tokenize_error_iff fo cc Hcc _ _ _)) in H as (t & Ht & He).
  apply lex_error_shape in He as [(a & b & x & -> & E)|[(a & c & b & x & y & -> & E)|Hc]].
  - injection E as -> _. eauto.
  - injection E as -> _. eauto.
  - unfold conversion_text in Hc. intuition discriminate.
Qed.
Lemma lexical_char chk input p x c m : tokenize fo cc chk input = Done (Err (EStr (PPos p :: PText x :: PChar c :: m))) ->
  exists a b, lf_text input (a ++ c :: b) /\ p = pos_of a.
Proof.
  intros H. apply (proj1 (tokenize_error_iff fo cc Hcc _ _ _)) in H as (t & Ht & He).
  apply lex_error_shape in He as [(a & b & x' & -> & E)|[(a & c' & b & x' & y & -> & E)|Hc]].
  - discriminate.
  - injection E as -> _ -> _. eauto.
  - unfold conversion_text in Hc. intuition discriminate.
Qed.
Lemma lexical_located chk input m : tokenize fo cc chk input = Done (Err (EStr m)) ->
  (exists p, mentions m p) \/ conversion_text m.
Proof.
  intros H. apply (proj1 (tokenize_error_iff fo cc Hcc _ _ _)) in H as (t & Ht & He).
  apply lex_error_shape in He as [(a & b & x & -> & ->)|[(a & c & b & x & y & -> & ->)|Hc]]; [left|left|auto];
    eexists; apply mn_here; left; reflexivity.
Qed.
End Lex.

(** ** Syntax errors *)
Lemma runs_suffix {A} (p : M (@parser F) A) s a r : runs p s a r -> exists c, s = c ++ r.
Proof. intros H. destruct (H []) as (c & E & _). eauto. Qed.
Lemma params_run_suffix s l r : params_run fo s l r -> exists c, s = c ++ r.
Proof. intros H. eapply runs_suffix. apply param_lists_ok. exact H. Qed.
Lemma directive_suffix s d r : directive fo s d r -> exists c, s = c ++ r.
Proof. intros H. eapply runs_suffix. apply directive_pd_ok. exact H. Qed.
Lemma predirective_suffix s d r : predirective fo s d r -> exists c, s = c ++ r.
Proof. intros H. eapply runs_suffix. apply predirective_ok. exact H. Qed.
Lemma predirectives_suffix s d r : predirectives fo s d r -> exists c, s = c ++ r.
Proof.
  induction 1 as [p s|s d s' ds r Hd Hs (c & E)]; [exists []; reflexivity|].
  apply predirective_suffix in Hd as (c' & ->). exists (c' ++ c). now rewrite E, app_assoc.
Qed.

(** [says s m]: every position in [m] is that of a token of [s], every token quoted is quoted with its own position, and
    there is a position unless the tokens ran out. *)
Definition says (s : toks) (m : msg) : Prop :=
  (forall p, mentions m p -> exists t, In t s /\ tok_pos t = p) /\
  (forall p x ty, m = [PPos p; PText x; PTok ty] -> In (mkTok p ty) s) /\
  ((exists p, mentions m p) \/ end_text m).

Lemma says_app c s m : says s m -> says (c ++ s) m.
Proof.
  intros (H1 & H2 & H3). split; [|split; [|assumption]].
  - intros p Hp. destruct (H1 p Hp) as (t & Ht & E). exists t. split; [|assumption]. apply in_or_app; auto.
  - intros p x ty E. apply in_or_app. right. eapply H2; eauto.
Qed.
Lemma says_cons t s m : says s m -> says (t :: s) m.
Proof. apply (says_app [t]). Qed.

Lemma mentions_flat (m : msg) p : mentions m p -> (forall e, ~ In (PErr e) m) -> In (PPos p) m.
Proof. intros [m' p' H|m' e p' H H'] Hn; [assumption|]. elim (Hn _ H). Qed.
Ltac flat H := apply mentions_flat in H; [|cbn [In]; intuition discriminate]; cbn [In] in H;
  repeat (destruct H as [H|H]; [try discriminate|]); try (exfalso; exact H).

Lemma says_token p ty x (s : toks) : says (mkTok p ty :: s) [PPos p; PText x; PTok ty].
Proof.
  split; [|split].
  - intros q H. flat H. injection H as <-. eexists; split; [left; reflexivity|reflexivity].
  - intros q y ty' [= <- <- <-]. left; reflexivity.
  - left. exists p. apply mn_here. left; reflexivity.
Qed.
Lemma says_id p ty x (s : toks) w : says (mkTok p ty :: s) [PPos p; PText x; PStr w].
Proof.
  split; [|split].
  - intros q H. flat H. injection H as <-. eexists; split; [left; reflexivity|reflexivity].
  - discriminate.
  - left. exists p. apply mn_here. left; reflexivity.
Qed.
Lemma says_end (s : toks) x : @end_text F [PText x] -> says s [PText x].
Proof.
  intros He. split; [|split].
  - intros q H. flat H.
  - discriminate.
  - auto.
Qed.
Lemma says_string s m : string_error s m -> says s m.
Proof. intros [|p ty s' H]; [apply says_end; constructor|apply says_token]. Qed.
Lemma says_ident s m : ident_error s m -> says s m.
Proof. intros [|p ty s' H]; [apply says_end; constructor|apply says_token]. Qed.
Lemma says_number s m : number_error s m -> says s (no_numbers m).
Proof.
  intros H.
  assert (G : forall p, mentions (no_numbers m) p -> mentions m p).
  { intros p Hp. inversion Hp as [m' p' Hi|m' e p' Hi He]; subst; unfold no_numbers in Hi; cbn [In] in Hi.
    - intuition discriminate.
    - assert (E : PErr (EStr e) = PErr (EStr m)) by intuition (try discriminate; auto). injection E as ->. exact He. }
  assert (G' : forall p, mentions m p -> mentions (no_numbers m) p).
  { intros p Hp. eapply mn_nested; [|exact Hp]. unfold no_numbers; cbn [In]. tauto. }
  destruct H as [|p ty s H].
  - split; [|split].
    + intros p Hp. apply G in Hp. flat Hp.
    + discriminate.
    + right. constructor.
  - destruct (says_token p ty " parse_float(): expected float but got " s) as (H1 & _ & _). split; [|split].
    + intros q Hq. apply H1. now apply G.
    + discriminate.
    + left. exists p. apply G'. apply mn_here. left; reflexivity.
Qed.

Lemma says_pre s m : pre_error fo s m -> says s m.
Proof.
  intros [p id mkP s0 m0 Hk He|p id mkP s0 m0 Hk He|p s0 m0 He|p what n s0 m0 Hk He|p what n s0 fl r Hk Hi Hr Hn|p id s0 Hw Hid].
  - apply says_cons. now apply says_string.
  - apply says_cons. now apply says_string.
  - apply says_cons. now apply says_ident.
  - apply says_cons. exact (says_number _ _ He).
  - split; [|split].
    + intros q H. flat H. injection H as <-. eexists; split; [left; reflexivity|reflexivity].
    + discriminate.
    + left. exists p. apply mn_here. left; reflexivity.
  - apply says_id.
Qed.
Lemma says_pres s m : pres_error fo s m -> says s m.
Proof.
  induction 1 as [p ty s Hty|p id mkP q w s l p' ty r Hk Hl Hty|s m He|s d s' m Hd Hs IH].
  - apply says_token.
  - do 2 apply says_cons. apply params_run_suffix in Hl as (c & ->). apply says_app, says_token.
  - now apply says_pre.
  - apply predirective_suffix in Hd as (c & ->). now apply says_app.
Qed.
Lemma says_dirs : (forall s m, dir_error fo s m -> says s m) /\ (forall s m, dirs_error fo s m -> says s m).
Proof.
  split; [apply (dir_error_mut F fo says says)|apply (dirs_error_mut F fo says says)]; intros.
  all: try (repeat apply says_cons; now apply says_string).
  all: try (apply says_cons; assumption).
  all: try apply says_id.
  all: try apply says_token.
  all: try assumption.
  all: try (repeat apply says_cons; match goal with H : params_run _ _ _ _ |- _ => apply params_run_suffix in H as (c & ->) end;
            apply says_app, says_token).
  all: match goal with H : directive _ _ _ _ |- _ => apply directive_suffix in H as (c & ->) end; now apply says_app.
Qed.
Lemma says_scene s m : scene_error fo s m -> says s m.
Proof.
  intros [s0 m0 Hp|s0 pres s' m0 Hp Hd]; [now apply says_pres|].
  apply predirectives_suffix in Hp as (c & ->). apply says_app. now apply (proj1 says_dirs).
Qed.

Lemma syntax_positions s m : parse_tokens fo s = Done (Err (EStr m)) ->
  forall p, mentions m p -> exists t, In t s /\ tok_pos t = p.
Proof. intros H. apply parse_tokens_error_iff, says_scene in H. exact (proj1 H). Qed.
Lemma syntax_token s p x ty : parse_tokens fo s = Done (Err (EStr [PPos p; PText x; PTok ty])) -> In (mkTok p ty) s.
Proof. intros H. apply parse_tokens_error_iff, says_scene in H. eapply (proj1 (proj2 H)); reflexivity. Qed.
Lemma syntax_located s m : parse_tokens fo s = Done (Err (EStr m)) -> (exists p, mentions m p) \/ end_text m.
Proof. intros H. apply parse_tokens_error_iff, says_scene in H. exact (proj2 (proj2 H)). Qed.

(** Each token list is a scene, an incomplete scene, or an error with one message; never two of these. *)
Lemma scene_or_error s :
  ((exists x, scene fo s x) \/ scene_eof fo s \/ exists m, scene_error fo s m) /\
  (forall x, scene fo s x -> ~ scene_eof fo s /\ forall m, ~ scene_error fo s m) /\
  (scene_eof fo s -> forall m, ~ scene_error fo s m) /\
  (forall m m', scene_error fo s m -> scene_error fo s m' -> m = m').
Proof.
  split; [apply scene_cases|]. split; [|split].
  - intros x Hx. apply parse_tokens_ok in Hx. split.
    + intros He. apply parse_tokens_eof in He. congruence.
    + intros m He. apply parse_tokens_error in He. congruence.
  - intros H m He. apply parse_tokens_eof in H. apply parse_tokens_error in He. congruence.
  - intros m m' H H'. apply parse_tokens_error in H, H'. congruence.
Qed.

(** ** Whole texts *)
Section Text.
Context (cc : CharClass) (Hcc : cc_ok cc).
Lemma parse_error_iff chk input m : parse fo cc chk input = Done (Err (EStr m)) <->
  exists t, lf_text input t /\
    (lex_error fo cc chk [] t m \/ exists toks, lexes fo cc chk [] t toks /\ scene_error fo toks m).
Proof.
  split.
  - unfold parse. destruct (tokenize fo cc chk input) as [[toks|e]| |] eqn:E; try discriminate.
    + intros H. apply (proj1 (tokenize_grammar fo cc Hcc _ _ _)) in E as (t & Ht & Hl).
      exists t. split; [assumption|]. right. exists toks. split; [assumption|]. now apply parse_tokens_error_iff.
    + destruct e as [m'|]; cbn; [|discriminate]. intros [= ->].
      apply (proj1 (tokenize_error_iff fo cc Hcc _ _ _)) in E as (t & Ht & He). eauto.
  - intros (t & Ht & [He|(toks & Hl & Hs)]); unfold parse.
    + rewrite (proj2 (tokenize_error_iff fo cc Hcc chk input m)) by eauto. reflexivity.
    + rewrite (proj2 (tokenize_grammar fo cc Hcc chk input toks)) by eauto. now apply parse_tokens_error.
Qed.
Lemma parse_located chk input m : parse fo cc chk input = Done (Err (EStr m)) ->
  (exists p, mentions m p) \/ conversion_text m \/ end_text m.
Proof.
  unfold parse. destruct (tokenize fo cc chk input) as [[toks|e]| |] eqn:E; try discriminate.
  - intros H. apply syntax_located in H. tauto.
  - destruct e as [m'|]; cbn; [|discriminate]. intros [= ->]. apply lexical_located in E; [tauto|assumption].
Qed.
End Text.
End Err.

Lemma position_refuted : exists input m,
  parse fo_sym cc_ascii true input = Done (Err (EStr m)) /\ forall p, ~ mentions m p.
Proof.
  exists (s2l "Scale 1 1 12345678901234567890 WorldBegin WorldEnd"). eexists. split; [vm_compute; reflexivity|].
  intros p H. inversion H as [m p' Hi|m m' p' Hi Hm]; subst; cbn in Hi; intuition discriminate.
Qed.
