(** How long the texts of error messages are. *)
From Verif Require Import Base TokModel ParModel LexSpec LexErrSpec SceneSpec SynErrSpec ErrSpec TokProofs LexProofs LexThms
  LexErrProofs SceneThms TextThms SynErrProofs ErrThms RenderModel RenderSpec RenderProofs SizeProofs LooksSpec LooksThms DecConv PropsLexLemmas.

(** ** Numbers *)
Lemma digits_acc w : forall a, (0 <= a)%Z -> (a * 10 ^ Z.of_nat (length w) <= fold_left (fun a c => (10 * a + Z.of_N (c - c_0)%N)%Z) w a)%Z.
Proof.
  induction w as [|c w IH]; intros a Ha; cbn [fold_left length]; [lia|].
  specialize (IH (10 * a + Z.of_N (c - c_0))%Z ltac:(lia)). rewrite Nat2Z.inj_succ, Z.pow_succ_r by lia.
  assert (0 <= 10 ^ Z.of_nat (length w))%Z by (apply Z.pow_nonneg; lia). nia.
Qed.
Lemma digits_big c w : is_ascii_digit c = true -> c <> c_0 -> (10 ^ Z.of_nat (length w) <= dec_val (c :: w))%Z.
Proof.
  intros Hc Hn. unfold dec_val. cbn [fold_left].
  assert (1 <= 10 * 0 + Z.of_N (c - c_0))%Z.
  { unfold is_ascii_digit in Hc. apply andb_true_iff in Hc as [H1 _]. apply N.leb_le in H1. unfold c_0 in *. lia. }
  etransitivity; [|apply digits_acc; lia]. assert (0 <= 10 ^ Z.of_nat (length w))%Z by (apply Z.pow_nonneg; lia). nia.
Qed.
Lemma pow_linear n : (Z.of_nat n < 10 ^ Z.of_nat n)%Z.
Proof. apply Z.pow_gt_lin_r; lia. Qed.
Lemma number_length w n : number_text w n -> length w <= 1 \/ (10 ^ Z.of_nat (length w - 1) <= Z.of_nat n)%Z.
Proof.
  intros (H1 & H2 & H3 & H4). destruct w as [|c w]; [congruence|]. destruct (N.eq_dec c c_0) as [->|Hn].
  - left. rewrite (H4 w eq_refl). cbn. lia.
  - right. rewrite <- H3. cbn [length]. replace (S (length w) - 1) with (length w) by lia. inversion H2; subst. now apply digits_big.
Qed.
Lemma number_short w n : number_text w n -> length w <= n + 1.
Proof. intros H. apply number_length in H as [H|H]; [lia|]. pose proof (pow_linear (length w - 1)). lia. Qed.
Lemma usize_short n : length (fmt_usize n) <= n + 1.
Proof. apply number_short, fmt_usize_text. Qed.
(** For numbers that are not zero. *)
Lemma usize_pos n : 0 < n -> length (fmt_usize n) <= n.
Proof.
  intros Hn. destruct (number_length _ _ (fmt_usize_text n)) as [H|H]; [lia|].
  pose proof (pow_linear (length (fmt_usize n) - 1)). lia.
Qed.
Lemma isize_short z : fits z -> length (fmt_isize z) <= 20.
Proof.
  intros Hz. assert (K : forall w n, number_text w n -> (Z.of_nat n <= 2 ^ 63)%Z -> length w <= 19).
  { intros w n H Hn. apply number_length in H as [H|H]; [lia|]. destruct (Nat.le_gt_cases (length w) 19) as [L|L]; [exact L|exfalso].
    assert (10 ^ 19 <= 10 ^ Z.of_nat (length w - 1))%Z by (apply Z.pow_le_mono_r; lia). assert (2 ^ 63 < 10 ^ 19)%Z by reflexivity. lia. }
  unfold fits in Hz. pose proof (fmt_isize_text z) as [(H0 & H)|(H0 & w' & -> & H)].
  - apply K in H; lia.
  - apply K in H; [cbn [length]; lia|lia].
Qed.

(** ** Places *)
Lemma rows_cols a : row_of a + col_of a <= length a + 2.
Proof.
  unfold row_of, col_of. rewrite <- (rev_length a). assert (count_occ N.eq_dec a c_lf = count_occ N.eq_dec (rev a) c_lf) as ->.
  { induction a as [|c a IH]; [reflexivity|]. cbn [rev]. rewrite count_occ_app, <- IH. cbn [count_occ]. destruct (N.eq_dec c c_lf); lia. }
  enough (count_occ N.eq_dec (rev a) c_lf + until_lf (rev a) <= length (rev a)) by lia.
  generalize (rev a) as b. clear a. induction b as [|c b IH]; [cbn; lia|]. cbn [count_occ until_lf length].
  destruct (N.eq_dec c c_lf) as [->|Hn].
  - rewrite N.eqb_refl. enough (count_occ N.eq_dec b c_lf <= length b) by lia. apply count_occ_bound.
  - apply N.eqb_neq in Hn. rewrite Hn. lia.
Qed.
Lemma place_length a b : forall n, length (a ++ b) <= n -> length (fmt_pos (pos_of a)) <= n + 6.
Proof.
  intros n. rewrite app_length. intros Hn. unfold fmt_pos. rewrite !app_length. cbn [length s2l pos_of pos_r pos_c].
  pose proof (rows_cols a). assert (0 < row_of a) by (unfold row_of; lia). assert (0 < col_of a) by (unfold col_of; lia).
  pose proof (usize_pos (row_of a)). pose proof (usize_pos (col_of a)). lia.
Qed.

(** ** Messages about tokens show tokens of the list *)
Section Msg.
Context {F : Type} (fo : FloatOps F).
Notation toks := (list (Token F)).
Notation msg := (list (piece F)).
Inductive from (s : toks) : msg -> Prop :=
| fr_tok : forall p t ty, In (mkTok p ty) s -> In t tok_texts -> from s [PPos p; PText t; PTok ty]
| fr_str : forall p t w, In (mkTok p (TIdent w)) s -> In t str_texts -> from s [PPos p; PText t; PStr w]
| fr_count : forall p ty what n k, In (mkTok p ty) s -> count_kw what n -> k <= length s -> from s (count_msg p what n k)
| fr_many : forall p ty, In (mkTok p ty) s -> from s (many_msg p ty)
| fr_fixed : forall m, end_text m -> from s m.
Lemma from_app c s m : from s m -> from (c ++ s) m.
Proof.
  intros []; [apply fr_tok|apply fr_str|eapply fr_count|apply fr_many|apply fr_fixed]; eauto using in_or_app.
  rewrite app_length. lia.
Qed.
Lemma from_cons t s m : from s m -> from (t :: s) m.
Proof. apply (from_app [t]). Qed.
Ltac inl := cbn [In end_texts char_texts tok_texts str_texts]; tauto.
Ltac here := left; reflexivity.
Lemma from_string s m : string_error s m -> from s m.
Proof. intros [|p ty s' H]; [apply fr_fixed; constructor|apply fr_tok; [here|inl]]. Qed.
Lemma from_ident s m : ident_error s m -> from s m.
Proof. intros [|p ty s' H]; [apply fr_fixed; constructor|apply fr_tok; [here|inl]]. Qed.
Lemma from_number s m : number_error s m -> from s (no_numbers m).
Proof. intros [|p ty s' H]; [apply fr_fixed; constructor|apply fr_many; here]. Qed.
Lemma floats_length s fl r : items (float_item fo) s fl r -> length fl <= length s.
Proof.
  enough (items (float_item fo) s fl r -> length fl + length r <= length s) by (intros H'; apply H in H'; lia).
  induction 1 as [s v r H|s v s' vs r H Hs IH]; destruct H; cbn [length] in *; lia.
Qed.
Lemma from_pre s m : pre_error fo s m -> from s m.
Proof.
  intros [p id mkP s0 m0 Hk He|p id mkP s0 m0 Hk He|p s0 m0 He|p what n s0 m0 Hk He|p what n s0 fl r Hk Hi Hr Hn|p id s0 Hw Hid].
  - apply from_cons. now apply from_string.
  - apply from_cons. now apply from_string.
  - apply from_cons. now apply from_ident.
  - apply from_cons. exact (from_number _ _ He).
  - eapply fr_count; [here|assumption|]. apply floats_length in Hi. cbn [length]. lia.
  - apply fr_str; [here|inl].
Qed.
Lemma from_pres s m : pres_error fo s m -> from s m.
Proof.
  induction 1 as [p ty s Hty|p id mkP q w s l p' ty r Hk Hl Hty|s m He|s d s' m Hd Hs IH].
  - apply fr_tok; [here|inl].
  - do 2 apply from_cons. apply params_run_suffix in Hl as (c & ->). apply from_app, fr_tok; [here|inl].
  - now apply from_pre.
  - apply predirective_suffix in Hd as (c & ->). now apply from_app.
Qed.
Lemma from_dirs : (forall s m, dir_error fo s m -> from s m) /\ (forall s m, dirs_error fo s m -> from s m).
Proof.
  split; [apply (dir_error_mut F fo from from)|apply (dirs_error_mut F fo from from)]; intros.
  all: try (repeat apply from_cons; now apply from_string).
  all: try (apply from_cons; assumption).
  all: try (apply fr_str; [here|inl]).
  all: try (apply fr_tok; [here|inl]).
  all: try assumption.
  all: try (repeat apply from_cons; match goal with H : params_run _ _ _ _ |- _ => apply params_run_suffix in H as (c & ->) end;
            apply from_app, fr_tok; [here|inl]).
  all: match goal with H : directive _ _ _ _ |- _ => apply directive_suffix in H as (c & ->) end; now apply from_app.
Qed.
Lemma from_scene s m : scene_error fo s m -> from s m.
Proof.
  intros [s0 m0 Hp|s0 pres s' m0 Hp Hd]; [now apply from_pres|].
  apply predirectives_suffix in Hp as (c & ->). apply from_app. now apply (proj1 from_dirs).
Qed.

(** ** Messages about characters *)
Inductive about (P : Pos -> Prop) : msg -> Prop :=
| ab_end : forall p t, P p -> In t end_texts -> about P [PPos p; PText t]
| ab_char : forall p t c, P p -> In t char_texts -> about P [PPos p; PText t; PChar c; PText "'"]
| ab_fixed : forall m, conversion_text m -> about P m.
Lemma lex_about cc chk pre s m : lex_error fo cc chk pre s m -> about (is_place (pre ++ s)) m.
Proof.
  induction 1 as [pre c s m Hw He IH|pre body s m Hb He IH|pre text ty s m Hl He IH|pre s m Ht].
  - now rewrite <- app_assoc in IH.
  - rewrite <- app_assoc in IH. cbn [app] in IH. now rewrite <- app_assoc in IH.
  - now rewrite <- app_assoc in IH.
  - destruct Ht as [pre c s Hs|pre s Ho|pre s Ho|pre c s m Hc Hn].
    + apply ab_char; [|inl]. exists pre, (c :: s). auto.
    + apply ab_end; [|inl]. exists (pre ++ c_quote :: s), []. now rewrite app_nil_r.
    + apply ab_end; [|inl]. exists (pre ++ c_quote :: s), [c_bslash]. split; [|reflexivity]. now rewrite <- app_assoc.
    + apply num_error_shape in Hn as [(a & b & Ea & ->)|[(a & b & Ea & ->)|H]].
      * apply ab_end; [|inl]. exists (pre ++ a), b. now rewrite Ea, app_assoc.
      * apply ab_char; [|inl]. exists (pre ++ a), (c_dot :: b). now rewrite Ea, app_assoc.
      * now apply ab_fixed.
Qed.

(** ** Lengths *)
Context (dd : DebugOps F) (k w : nat) (Hk : forall c, length (dbg_char dd c) <= k) (Hw : forall x, length (dbg_float dd x) <= w).
Lemma dbg_length s : length (dbg_str dd s) <= k * length s + 2.
Proof.
  unfold dbg_str. cbn [length]. rewrite app_length. cbn [length].
  enough (length (flat_map (dbg_char dd) s) <= k * length s) by lia.
  induction s as [|c s IH]; [cbn; lia|]. cbn [flat_map length]. rewrite app_length. specialize (Hk c). lia.
Qed.
Lemma token_length (t : Token F) : (forall i, tok_ty t = TInt i -> fits i) -> length (dbg_token dd (tok_ty t)) <= k * text t + w + 25.
Proof.
  intros Hi. unfold text. destruct (tok_ty t) as [s|i|f|s| |]; cbn [dbg_token]; rewrite ?app_length; cbn [s2l length].
  - pose proof (dbg_length s). lia.
  - pose proof (isize_short i (Hi i eq_refl)). lia.
  - specialize (Hw f). lia.
  - pose proof (dbg_length s). lia.
  - lia.
  - lia.
Qed.
End Msg.

Section All.
Context {F : Type} (fo : FloatOps F) (dd : DebugOps F) (k w : nat).
Context (Hk : forall c, length (dbg_char dd c) <= k) (Hw : forall x, length (dbg_float dd x) <= w).
Lemma sum_in (t : Token F) ts : In t ts -> text t <= list_sum (map text ts).
Proof.
  induction ts as [|u ts IH]; [easy|]. cbn [map list_sum fold_right]. change (fold_right Nat.add 0) with list_sum.
  intros [->|H]; [lia|]. apply IH in H. lia.
Qed.
Lemma texts_length l n : forallb (fun t => length (s2l t) <=? n) l = true -> forall t, In t l -> length (s2l t) <= n.
Proof. intros H t Ht. rewrite forallb_forall in H. apply Nat.leb_le, H, Ht. Qed.
Lemma count_length what n : count_kw what n -> length (s2l what) <= 15 /\ n <= 9.
Proof. intros []; cbn; lia. Qed.

Theorem message_length cc : cc_ok cc -> forall chk input e, parse fo cc chk input = Done (Err e) ->
  length (fmt_error dd e) <= (k + 2) * length input + w + 140.
Proof.
  intros Hcc chk input e E. destruct e as [m|]; [|cbn; lia]. rewrite fmt_error_str.
  assert (Fix : conversion_text m \/ end_text m -> length (fmt_msg dd m) <= 140).
  { intros H. apply (fmt_fixed dd) in H as (t & Ht & ->). revert Ht. apply (texts_length fixed_texts 140). reflexivity. }
  revert E. unfold parse. destruct (tokenize fo cc chk input) as [[ts|e]| |] eqn:E; try discriminate.
  - intros H. apply parse_tokens_error_iff, from_scene in H. pose proof (tokenize_small fo cc chk _ _ E) as (N & T).
    apply (tokenize_positions fo cc Hcc) in E as (_ & t & Ht & Hf). rewrite Forall_forall in Hf.
    pose proof (lf_text_length _ _ Ht) as Lt.
    assert (P : forall p ty, In (mkTok p ty) ts -> length (fmt_pos p) <= length input + 6 /\
              length (dbg_token dd ty) <= k * length input + w + 25 /\ forall x, ty = TIdent x -> length x <= length input).
    { intros p ty Hi. destruct (Hf _ Hi) as (pre & text0 & rest & Et & Hl & Ep). cbn [tok_pos tok_ty] in *. split; [|split].
      - subst p. apply place_length with (b := text0 ++ rest). now rewrite <- Et.
      - pose proof (token_length dd k w Hk Hw (mkTok p ty)) as H'. cbn [tok_ty] in H'.
        pose proof (sum_in _ _ Hi). assert (k * text (mkTok p ty) <= k * length input) by (apply Nat.mul_le_mono_l; lia).
        enough (length (dbg_token dd ty) <= k * text (mkTok p ty) + w + 25) by lia. apply H'.
        intros i ->. inversion Hl; subst. eapply number_fits; eassumption.
      - intros x ->. pose proof (sum_in _ _ Hi) as Hs. unfold text in Hs at 1. cbn [tok_ty] in Hs. lia. }
    destruct H as [p x ty Hi Hx|p x v Hi Hx|p ty what n j Hi Hc Hj|p ty Hi|m Hm].
    + destruct (P _ _ Hi) as (P1 & P2 & _). unfold fmt_msg. cbn [flat_map fmt_piece]. rewrite !app_length. cbn [length].
      pose proof (texts_length tok_texts 70 eq_refl x Hx). lia.
    + destruct (P _ _ Hi) as (P1 & _ & P3). specialize (P3 _ eq_refl). unfold fmt_msg. cbn [flat_map fmt_piece]. rewrite !app_length. cbn [length].
      pose proof (texts_length str_texts 70 eq_refl x Hx). lia.
    + destruct (P _ _ Hi) as (P1 & _ & _). unfold count_msg, fmt_msg. cbn [flat_map fmt_piece]. rewrite !app_length. cbn [length s2l].
      apply count_length in Hc as (C1 & C2). pose proof (usize_short n). pose proof (usize_short j). lia.
    + destruct (P _ _ Hi) as (P1 & P2 & _). rewrite fmt_many, !app_length. unfold many_prefix. cbn [length s2l]. lia.
    + specialize (Fix (or_intror Hm)). lia.
  - destruct e as [m'|]; cbn; [|discriminate]. intros [= ->].
    apply (proj1 (tokenize_error_iff fo cc Hcc _ _ _)) in E as (t & Ht & He). apply lex_about in He.
    pose proof (lf_text_length _ _ Ht) as Lt.
    assert (P : forall p, is_place ([] ++ t) p -> length (fmt_pos p) <= length input + 6).
    { intros p (a & b & Ea & ->). cbn [app] in Ea. apply place_length with (b := b). now rewrite <- Ea. }
    destruct He as [p x Hp Hx|p x c Hp Hx|m Hm].
    + apply P in Hp. unfold fmt_msg. cbn [flat_map fmt_piece]. rewrite !app_length. cbn [length].
      pose proof (texts_length end_texts 70 eq_refl x Hx). lia.
    + apply P in Hp. unfold fmt_msg. cbn [flat_map fmt_piece]. rewrite !app_length. cbn [length s2l].
      pose proof (texts_length char_texts 70 eq_refl x Hx). lia.
    + specialize (Fix (or_introl Hm)). lia.
Qed.
End All.

(** ** Names are shown in full *)
Definition long_name (n : nat) : str := repeat 120%N (S n).
Lemma long_alpha n : Forall (fun c => is_alphanumeric cc_ascii c = true) (repeat 120%N n).
Proof. apply Forall_forall. intros c Hc. apply repeat_spec in Hc. now subst c. Qed.
Lemma long_head n c s : c <> 120%N -> long_name n <> c :: s.
Proof. intros Hc H. injection H as H _. congruence. Qed.
Lemma names_in_full F (fo : FloatOps F) (dd : DebugOps F) chk n : exists e, parse fo cc_ascii chk (long_name n) = Done (Err e) /\
  length (long_name n) = n + 1 /\ n + 1 <= length (fmt_error dd e).
Proof.
  set (m := [PPos (mkPos 1 1); PText " parse_predirective(): Unknown predirective: "; PStr (long_name n)] : list (piece F)).
  exists (EStr m). split; [|split].
  - apply (parse_error_iff fo cc_ascii cc_ascii_ok). exists (long_name n). split.
    + apply lf_text_iff. symmetry. apply replace_crlf_id. unfold long_name. intros H. apply repeat_spec in H. discriminate.
    + right. exists [mkTok (pos_of []) (TIdent (long_name n))]. split.
      * rewrite <- (app_nil_r (long_name n)) at 1. apply ls_token; [|apply ls_end]. apply lx_ident.
        exists 120%N, (repeat 120%N n). split; [reflexivity|]. split; [reflexivity|]. split; [reflexivity|]. split; [apply long_alpha|exact I].
      * apply sce_pre, pres_here. change (mkPos 1 1) with (pos_of []) in m. subst m. apply pre_unknown; [apply long_head; discriminate|].
        intros H. cbn [pre_keywords map In] in H.
        repeat destruct H as [H|H]; try (symmetry in H; cbn [s2l] in H; revert H; apply long_head; discriminate). exact H.
  - unfold long_name. rewrite repeat_length. lia.
  - subst m. rewrite fmt_error_str. unfold fmt_msg. cbn [flat_map fmt_piece]. rewrite !app_length. unfold long_name at 1. rewrite repeat_length. lia.
Qed.
Lemma names_grow F (fo : FloatOps F) (dd : DebugOps F) chk n : exists input e,
  length input = n + 1 /\ parse fo cc_ascii chk input = Done (Err e) /\ n + 1 <= length (fmt_error dd e).
Proof. destruct (names_in_full F fo dd chk n) as (e & H1 & H2 & H3). exists (long_name n), e. auto. Qed.
