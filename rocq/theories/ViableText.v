(** C100 on texts. *)
From Verif Require Import Base TokModel ParModel LexSpec SceneSpec SceneObs SynErrSpec ErrSpec StableSpec ViableSpec
  TokProofs LexProofs LexThms DirProofs TextThms SceneThms KindProofs SceneProps SynErrProofs DecText ViableProofs.

Section VT.
Context {F : Type} (fo : FloatOps F) (cc : CharClass) (Hcc : cc_ok cc).
Notation toks := (list (Token F)).

Lemma next_cut (P : char -> Prop) s1 s2 : next_is P (s1 ++ s2) -> next_is P s1.
Proof. now destruct s1. Qed.
Lemma number_cut chk text v r : number fo cc chk text v r -> forall s1 s2, r = s1 ++ s2 -> number fo cc chk text v s1.
Proof.
  induction 1 as [sg neg body v r Hs Hm Hi Hr|sg neg body m k r Hs Hm Hd Hr|sg neg body m t e v r Hs Hm Hi Hn IH Hz He|
    sg neg body dot m k t e r Hs Hm Hd Hn IH He|sg neg body dot m k t f r Hs Hm Hd Hn IH]; intros s1 s2 ->.
  - eapply nu_int; eauto. now apply next_cut in Hr.
  - eapply nu_dec; eauto. now apply next_cut in Hr.
  - eapply nu_int_exp; eauto.
  - eapply nu_dec_exp; eauto.
  - eapply nu_float_exp; eauto.
Qed.
Lemma lexeme_cut chk text ty s1 s2 : lexeme fo cc chk text ty (s1 ++ s2) -> lexeme fo cc chk text ty s1.
Proof.
  intros H. remember (s1 ++ s2) as r eqn:Er. destruct H as [r|r|src v r Hb|t r Hi|t v r Hn].
  - constructor.
  - constructor.
  - now constructor.
  - apply lx_ident. destruct Hi as (c & u & -> & H1 & H2 & H3 & H4). exists c, u. subst r. apply next_cut in H4. auto.
  - apply lx_num. eapply number_cut; eauto.
Qed.
(** The text in front of a token, with something else behind it. *)
Lemma lexes_front chk p0 s ts : lexes fo cc chk p0 s ts -> forall a tk b, ts = a ++ tk :: b ->
  exists x text rest, s = x ++ text ++ rest /\ tok_pos tk = pos_of (p0 ++ x) /\ lexeme fo cc chk text (tok_ty tk) rest /\
    forall w tw, lexes fo cc chk (p0 ++ x) (32%N :: w) tw -> lexes fo cc chk p0 (x ++ 32%N :: w) (a ++ tw).
Proof.
  induction 1 as [pre|pre c s ts Hw H IH|pre body s ts Hb H IH|pre body Hb|pre text ty s ts Hx H IH]; intros a tk b E.
  - now destruct a.
  - destruct (IH _ _ _ E) as (x & text & rest & -> & Hp & Hx & G). exists (c :: x), text, rest. split; [reflexivity|].
    rewrite <- app_assoc in Hp, G. split; [exact Hp|]. split; [exact Hx|]. intros w tw Ht. cbn [app]. apply ls_space; [assumption|].
    now apply G.
  - destruct (IH _ _ _ E) as (x & text & rest & -> & Hp & Hx & G). exists (c_hash :: body ++ c_lf :: x), text, rest.
    split; [cbn [app]; now rewrite <- app_assoc|]. assert (A : (pre ++ c_hash :: body ++ [c_lf]) ++ x = pre ++ c_hash :: body ++ c_lf :: x)
      by (rewrite <- app_assoc; cbn [app]; now rewrite <- app_assoc). rewrite A in Hp, G.
    split; [exact Hp|]. split; [exact Hx|]. intros w tw Ht. cbn [app]. rewrite <- app_assoc. cbn [app]. apply ls_comment; [assumption|].
    now apply G.
  - now destruct a.
  - destruct a as [|t0 a]; cbn [app] in E.
    + injection E as <- _. exists [], text, s. split; [reflexivity|]. rewrite app_nil_r. split; [reflexivity|]. split; [exact Hx|].
      intros w tw Ht. exact Ht.
    + injection E as <- E. destruct (IH _ _ _ E) as (x & text' & rest & -> & Hp & Hx' & G). exists (text ++ x), text', rest.
      split; [apply app_assoc|]. rewrite <- app_assoc in Hp, G. split; [exact Hp|]. split; [exact Hx'|]. intros w tw Ht.
      rewrite <- app_assoc. cbn [app]. apply ls_token.
      * apply lexeme_cut in Hx. exact (lexeme_app fo cc Hcc chk text ty x Hx 32%N w eq_refl).
      * now apply G.
Qed.

Lemma simple_writable chk (t : Token F) : simple t -> writable fo cc chk (tok_ty t).
Proof.
  intros [->|[->|[->|[->| ->]]]].
  - apply (write_str fo cc).
  - apply (write_int fo cc Hcc). split; discriminate.
  - apply (write_ident fo cc Hcc), (ascii_ident cc Hcc); [discriminate|reflexivity].
  - apply (write_ident fo cc Hcc), (ascii_ident cc Hcc); [discriminate|reflexivity].
  - apply (write_ident fo cc Hcc), (ascii_ident cc Hcc); [discriminate|reflexivity].
Qed.
Lemma no_pair_app a w : no_pair a -> ~ In c_lf w -> no_pair (a ++ w).
Proof.
  intros Ha Hw x y E. assert (Hlf : nth_error (a ++ w) (S (length x)) = Some c_lf).
  { rewrite E, nth_error_app2 by auto. replace (S (length x) - length x) with 1 by (rewrite Nat.sub_succ_l, Nat.sub_diag; auto). reflexivity. }
  assert (Hlt : S (length x) < length a).
  { destruct (le_lt_dec (length a) (S (length x))) as [L|L]; [|assumption]. rewrite nth_error_app2 in Hlf by assumption.
    apply nth_error_In in Hlf. contradiction. }
  apply (Ha x (skipn (S (S (length x))) a)). rewrite <- (firstn_skipn (S (S (length x))) a) at 1.
  assert (Ef : firstn (S (S (length x))) a = firstn (S (S (length x))) (a ++ w)).
  { rewrite firstn_app. replace (S (S (length x)) - length a) with 0 by (symmetry; now apply Nat.sub_0_le).
    cbn [firstn]. now rewrite app_nil_r. }
  rewrite Ef, E. change (c_cr :: c_lf :: y) with ([c_cr; c_lf] ++ y). rewrite app_assoc, firstn_app.
  assert (Hl : length (x ++ [c_cr; c_lf]) = S (S (length x))) by (rewrite app_length; cbn; now rewrite Nat.add_comm).
  rewrite <- Hl, firstn_all, Nat.sub_diag. cbn [firstn]. rewrite app_nil_r, <- app_assoc. reflexivity.
Qed.
Lemma no_pair_front a b : no_pair (a ++ b) -> no_pair a.
Proof. intros H x y ->. apply (H x (y ++ b)). now rewrite <- app_assoc. Qed.
Lemma text_of_tokens chk text ts : no_pair text -> lexes fo cc chk [] text ts -> tokenize fo cc chk text = Done (Ok ts).
Proof.
  intros Hn H. apply (tokenize_ok_iff fo cc Hcc). now rewrite <- (proj1 (lf_text_iff _ _) (no_pair_lf_text _ Hn)).
Qed.

Lemma place_text chk input m p ts : no_pair input -> tokenize fo cc chk input = Done (Ok ts) ->
  parse fo cc chk input = Done (Err (EStr m)) -> mentions m p ->
  exists pre rest, input = pre ++ rest /\ rest <> [] /\ p = pos_of pre /\
    exists w x, parse fo cc chk (pre ++ 32%N :: w) = Done (Ok x).
Proof.
  intros Hn Ht H Hm. unfold parse in H. rewrite Ht in H. apply parse_tokens_error_iff in H.
  destruct (scene_place fo _ _ _ H Hm) as (a & t & b & -> & Et & (v & x & S & X) & _).
  apply (tokenize_ok_iff fo cc Hcc) in Ht. rewrite <- (proj1 (lf_text_iff _ _) (no_pair_lf_text _ Hn)) in Ht.
  destruct (lexes_front _ _ _ _ Ht _ _ _ eq_refl) as (pre & text & rest & -> & Hp & Hx & G). cbn [app] in Hp, G.
  exists pre, (text ++ rest). split; [reflexivity|]. split.
  { apply (lexeme_nonempty fo cc) in Hx. intros E. now apply app_eq_nil in E as [-> _]. }
  split; [now rewrite <- Et|].
  destruct (write_tokens fo cc Hcc chk v) with (pre := pre ++ [32%N]) as (w & l & Hl & Hk & Hnw).
  { eapply Forall_impl; [|exact S]. intros t0. apply simple_writable. }
  assert (T : tokenize fo cc chk (pre ++ 32%N :: w) = Done (Ok (a ++ l))).
  { apply text_of_tokens; [|apply G; now apply ls_space]. apply no_pair_app; [now apply no_pair_front in Hn|]. intros [E|E]; [discriminate|contradiction]. }
  exists w. unfold parse. rewrite T.
  destruct (k_scene fo (a ++ v) x (a ++ l)) as (x2 & _ & Hx2); [unfold kinds in *; now rewrite !map_app, Hk|exact X|].
  exists x2. now apply parse_tokens_iff.
Qed.
End VT.
