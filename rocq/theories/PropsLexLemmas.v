(** The lemmas that PropsLex.v closes its theorems with, in the form stated there. *)
From Verif Require Import Base TokModel ParModel LexSpec SceneSpec TokProofs NumProofs LexProofs LexThms SimProofs TextThms.

Lemma cc_ascii_ok : cc_ok cc_ascii.
Proof.
  split; cbn; try reflexivity; intros c H.
  - destruct (is_ascii_digit c) eqn:E; [|reflexivity]. exfalso. revert H. unfold is_ascii_digit, c_0, c_9 in E.
    apply andb_true_iff in E as [E1 E2]. apply N.leb_le in E1, E2.
    assert (Hc : In c (map N.of_nat (seq 48 10))).
    { rewrite in_map_iff. exists (N.to_nat c). split; [lia|]. apply in_seq. lia. }
    cbn in Hc. intuition (subst; discriminate).
  - destruct (is_ascii_alpha c) eqn:E; [|reflexivity]. exfalso. revert H. unfold is_ascii_alpha in E.
    assert (Hc : In c (map N.of_nat (seq 65 58))).
    { rewrite in_map_iff. exists (N.to_nat c). split; [lia|]. apply in_seq.
      repeat rewrite ?orb_true_iff, ?andb_true_iff, ?N.leb_le in E. lia. }
    cbn in Hc. repeat (destruct Hc as [Hc|Hc]; [subst; discriminate|]). contradiction.
Qed.

Lemma no_cr_no_pair s : ~ In c_cr s -> no_pair s.
Proof. intros H a b ->. apply H. rewrite in_app_iff. right. now left. Qed.

Lemma crlf_all_texts_refuted : exists s, parse fo_sym cc_ascii false (to_crlf s) <> parse fo_sym cc_ascii false s.
Proof.
  exists (s2l "WorldBegin Include """ ++ [c_cr; c_lf] ++ s2l """ WorldEnd"). vm_compute. discriminate.
Qed.

Lemma no_quote_unterminated src v rest : s2l "ab\" = src ++ c_quote :: rest -> ~ str_body src v.
Proof.
  intros E _. assert (H : In c_quote (s2l "ab\")) by (rewrite E, in_app_iff; right; now left).
  cbn in H. intuition discriminate.
Qed.

Lemma exponent_refuted : exists ds es : str, all_digits ds /\ all_digits es /\ exists v : Z,
  tokenize fo_sym cc_ascii true (ds ++ c_e :: es) = Done (Ok [mkTok (mkPos 1 1) (TInt v)]) /\
  v <> (dec_val ds * 10 ^ dec_val es)%Z.
Proof.
  exists (s2l "1"), (s2l "4294967296"). split; [|split].
  - repeat constructor.
  - repeat constructor.
  - exists 1%Z. split; [vm_compute; reflexivity|]. intros E.
    assert (H : (0 < dec_val (s2l "4294967296"))%Z) by (vm_compute; reflexivity).
    revert E H. generalize (dec_val (s2l "4294967296")). intros e E H.
    change (dec_val (s2l "1")) with 1%Z in E. rewrite Z.mul_1_l in E. pose proof (Z.pow_gt_1 10 e eq_refl) as H'. lia.
Qed.

Section L.
Context {F : Type} (fo : FloatOps F) (cc : CharClass) (Hcc : cc_ok cc).

Lemma parse_lf_text chk s t : lf_text s t -> no_pair t -> parse fo cc chk s = parse fo cc chk t.
Proof.
  intros H Hn. unfold parse, tokenize, tk_new. apply lf_text_iff in H. subst t.
  now rewrite <- (proj1 (lf_text_iff _ _) (no_pair_lf_text _ Hn)).
Qed.
Lemma lexes_unambiguous chk input t t' toks toks' :
  lf_text input t -> lf_text input t' -> lexes fo cc chk [] t toks -> lexes fo cc chk [] t' toks' -> toks = toks'.
Proof.
  intros H H' L L'. assert (A : tokenize fo cc chk input = Done (Ok toks)) by (apply tokenize_grammar; eauto).
  assert (B : tokenize fo cc chk input = Done (Ok toks')) by (apply tokenize_grammar; eauto). congruence.
Qed.
Lemma literal_first_spec chk v rest toks :
  tokenize fo cc chk (literal v ++ rest) = Done (Ok toks) <->
  exists t t', lf_text rest t /\ toks = mkTok (mkPos 1 1) (TStr v) :: t' /\ lexes fo cc chk (literal v) t t'.
Proof.
  rewrite (literal_first fo cc Hcc). split.
  - intros (t' & H). exists (replace_crlf rest), t'. split; [apply replace_crlf_spec|exact H].
  - intros (t & t' & Ht & H). apply lf_text_iff in Ht. subst t. eauto.
Qed.
Lemma unterminated_spec chk s t : lf_text s t ->
  (forall src v rest, t = src ++ c_quote :: rest -> ~ str_body src v) ->
  exists m, tokenize fo cc chk (c_quote :: s) = Done (Err (EStr m)).
Proof. intros H. apply lf_text_iff in H. subst t. now apply unterminated_err. Qed.
Lemma escape_meaning chk c : tokenize fo cc chk [34; 92; c; 34]%N =
  Done (Ok [mkTok (mkPos 1 1) (TStr [if (c =? 110)%N then 10%N else c])]).
Proof.
  apply only_token; [assumption| |].
  - change [34; 92; c; 34]%N with (c_quote :: [c_bslash; c] ++ [c_quote]). apply lx_str.
    destruct (N.eqb_spec c 110) as [->|N]; [apply (sb_newline [] [])|apply (sb_escape c [] [])]; try assumption; constructor.
  - cbn. destruct (c =? c_cr)%N; reflexivity.
Qed.
Lemma ascii_classes : forall c, (is_ascii_digit c = true <-> In c (s2l "0123456789")) /\
  (is_ascii_alpha c = true <-> In c (s2l "ABCDEFGHIJKLMNOPQRSTUVWXYZabcdefghijklmnopqrstuvwxyz")) /\
  (is_alphanumeric cc c = true <-> is_alphabetic cc c = true \/ is_numeric cc c = true).
Proof.
  intros c. assert (X : forall P : N -> bool, (forall d, P d = true -> (d < 128)%N) -> forall l,
    forallb (fun k => Bool.eqb (P (N.of_nat k)) (existsb (N.eqb (N.of_nat k)) l)) (seq 0 128) = true -> forallb (fun d => d <? 128)%N l = true ->
    P c = true <-> In c l).
  { intros P HP l HL HB. rewrite forallb_forall in HL, HB.
    assert (Y : (c < 128)%N -> P c = existsb (N.eqb c) l).
    { intros Hc. specialize (HL (N.to_nat c)). rewrite N2Nat.id in HL. apply Bool.eqb_prop, HL, in_seq. lia. }
    split; intros H.
    - rewrite Y in H by now apply HP. apply existsb_exists in H as (d & Hd & E). apply N.eqb_eq in E. now subst.
    - rewrite Y by now apply N.ltb_lt, HB. apply existsb_exists. exists c. split; [assumption|apply N.eqb_refl]. }
  repeat split; try (apply X; [|vm_compute; reflexivity|vm_compute; reflexivity]).
  1-2: intros d; unfold is_ascii_digit, c_0, c_9; intros H; apply andb_prop in H as [H1 H2]; apply N.leb_le in H1, H2; lia.
  1-2: intros d; unfold is_ascii_alpha; intros H; apply Bool.orb_prop in H as [H|H]; apply andb_prop in H as [H1 H2]; apply N.leb_le in H1, H2; lia.
  - apply Bool.orb_prop.
  - intros H. now apply Bool.orb_true_iff.
Qed.
Lemma int_literal_first_spec chk sg neg ds rest toks :
  sign sg neg -> ds <> [] -> all_digits ds -> ends_number cc rest -> fits (signed neg (dec_val ds)) ->
  (tokenize fo cc chk (sg ++ ds ++ rest) = Done (Ok toks) <->
   exists t t', lf_text rest t /\ toks = mkTok (mkPos 1 1) (TInt (signed neg (dec_val ds))) :: t' /\
                lexes fo cc chk (sg ++ ds) t t').
Proof.
  intros H1 H2 H3 H4 H5. rewrite (int_literal_first fo cc Hcc chk sg neg ds rest toks) by assumption. split.
  - intros (t' & H). exists (replace_crlf rest), t'. split; [apply replace_crlf_spec|exact H].
  - intros (t & t' & Ht & H). apply lf_text_iff in Ht. subst t. eauto.
Qed.
Lemma int_literal_alone chk sg neg ds :
  sign sg neg -> ds <> [] -> all_digits ds -> fits (signed neg (dec_val ds)) ->
  tokenize fo cc chk (sg ++ ds) = Done (Ok [mkTok (mkPos 1 1) (TInt (signed neg (dec_val ds)))]).
Proof.
  intros H1 H2 H3 H4. rewrite <- (app_nil_r ds) at 1. apply (int_literal_first fo cc Hcc chk sg neg ds [] _); try assumption; [exact I|].
  exists []. split; [reflexivity|constructor].
Qed.
Lemma every_integer chk z : fits z ->
  exists text, tokenize fo cc chk text = Done (Ok [mkTok (mkPos 1 1) (TInt z)]).
Proof.
  intros Hz. destruct (digits_exist (Z.to_N (Z.abs z))) as (ds & Hne & Hd & Hv).
  destruct (Z_lt_le_dec z 0) as [Hn|Hp].
  - exists ([c_minus] ++ ds).
    assert (E : signed true (dec_val ds) = z) by (rewrite Hv; cbn; lia). rewrite <- E.
    apply int_literal_alone; try assumption; [constructor|now rewrite E].
  - exists ([] ++ ds).
    assert (E : signed false (dec_val ds) = z) by (rewrite Hv; cbn; lia). rewrite <- E.
    apply int_literal_alone; try assumption; [constructor|now rewrite E].
Qed.

Lemma dec_val_nonneg ds : all_digits ds -> (0 <= dec_val ds)%Z.
Proof.
  intros _. unfold dec_val. assert (G : forall a, (0 <= a)%Z -> (0 <= fold_left (fun a c => (10 * a + Z.of_N (c - c_0)%N)%Z) ds a)%Z).
  { induction ds as [|c ds IH]; intros a Ha; cbn [fold_left]; [assumption|]. apply IH. lia. }
  now apply G.
Qed.
Lemma exponent_small chk sg neg ds sg' es :
  sign sg neg -> ds <> [] -> all_digits ds -> sign sg' false -> es <> [] -> all_digits es ->
  (dec_val es < 2 ^ 32)%Z -> fits (10 ^ dec_val es) -> fits (signed neg (dec_val ds) * 10 ^ dec_val es) ->
  tokenize fo cc chk (sg ++ ds ++ c_e :: sg' ++ es) =
    Done (Ok [mkTok (mkPos 1 1) (TInt (signed neg (dec_val ds) * 10 ^ dec_val es))]).
Proof.
  intros H1 H2 H3 H4 H5 H6 Hlt Hp Hv. pose proof (dec_val_nonneg es H6) as He.
  assert (Hmod : (dec_val es mod 2 ^ 32 = dec_val es)%Z) by (apply Z.mod_small; lia).
  assert (H0 : (0 < 10 ^ dec_val es)%Z) by (apply Z.pow_pos_nonneg; lia).
  apply (exp_literal fo cc Hcc _ sg neg); try assumption.
  - unfold fits in *. nia.
  - unfold fits. assert (2 ^ 32 < 2 ^ 63)%Z by reflexivity. lia.
  - left. rewrite Hmod. auto.
Qed.
Lemma fits_dec z : fits z \/ ~ fits z.
Proof. unfold fits. lia. Qed.
Lemma int_exp_panics sg neg ds sg' es :
  sign sg neg -> ds <> [] -> all_digits ds -> fits (signed neg (dec_val ds)) ->
  sign sg' false -> es <> [] -> all_digits es -> fits (dec_val es) ->
  ~ (fits (10 ^ (dec_val es mod 2 ^ 32)) /\ fits (signed neg (dec_val ds) * 10 ^ (dec_val es mod 2 ^ 32))) ->
  tokenize fo cc true (sg ++ ds ++ c_e :: sg' ++ es) = Panic.
Proof.
  intros H1 H2 H3 H4 H5 H6 H7 H8 H. apply tokenize_panic_iff; [assumption|]. split; [reflexivity|].
  rewrite replace_crlf_id.
  - rewrite <- (app_nil_r (sg ++ ds ++ c_e :: sg' ++ es)). apply lo_here.
    apply no_here with (neg := neg) (m := signed neg (dec_val ds)) (e := dec_val es); try assumption.
    + now apply digits_mantissa.
    + split; [assumption|]. split; [assumption|]. now split.
    + apply nu_int with (neg := false); [assumption|now apply digits_mantissa| |exact I]. split; [assumption|]. split; [assumption|]. split; [reflexivity|assumption].
    + now apply dec_val_nonneg.
  - rewrite app_assoc, in_app_iff. intros [Hi|Hi]; [now apply (int_text_no_cr _ _ _ H1 H3)|].
    destruct Hi as [Hi|Hi]; [discriminate|]. now apply (int_text_no_cr _ _ _ H5 H7).
Qed.
Lemma exponent_exact chk sg neg ds sg' es :
  sign sg neg -> ds <> [] -> all_digits ds -> fits (signed neg (dec_val ds)) ->
  sign sg' false -> es <> [] -> all_digits es -> fits (dec_val es) ->
  let m := signed neg (dec_val ds) in let p := (10 ^ (dec_val es mod 2 ^ 32))%Z in
  let o := tokenize fo cc chk (sg ++ ds ++ c_e :: sg' ++ es) in
  if chk then (fits p /\ fits (m * p) /\ o = Done (Ok [mkTok (mkPos 1 1) (TInt (m * p))])) \/
              (~ (fits p /\ fits (m * p)) /\ o = Panic)
  else o = Done (Ok [mkTok (mkPos 1 1) (TInt (wrap (m * p)))]).
Proof.
  intros H1 H2 H3 H4 H5 H6 H7 H8 m p o. destruct chk.
  - destruct (fits_dec p) as [Hp|Hp].
    + destruct (fits_dec (m * p)) as [Hm|Hm].
      * left. repeat split; try apply Hp; try apply Hm. apply (exp_literal fo cc Hcc _ sg neg); try assumption. left. auto.
      * right. split; [tauto|]. apply (int_exp_panics _ neg); try assumption. fold p m. tauto.
    + right. split; [tauto|]. apply (int_exp_panics _ neg); try assumption. fold p m. tauto.
  - apply (exp_literal fo cc Hcc _ sg neg); try assumption. right. auto.
Qed.
End L.

(** ** White space *)
Lemma white_space_iff c : is_whitespace c = true <-> In c white_space.
Proof.
  split.
  - unfold is_whitespace. rewrite !orb_true_iff, !andb_true_iff, !N.leb_le, !N.eqb_eq. intros H.
    assert (H' : ((c = 9 \/ c = 10 \/ c = 11 \/ c = 12 \/ c = 13) \/ c = 32 \/ c = 133 \/ c = 160 \/ c = 5760 \/
      (c = 8192 \/ c = 8193 \/ c = 8194 \/ c = 8195 \/ c = 8196 \/ c = 8197 \/ c = 8198 \/ c = 8199 \/ c = 8200 \/ c = 8201 \/ c = 8202) \/
      c = 8232 \/ c = 8233 \/ c = 8239 \/ c = 8287 \/ c = 12288)%N) by lia.
    clear H. cbn. decompose [or] H'; subst; tauto.
  - intros H. cbn in H. decompose [or] H; subst; try contradiction; reflexivity.
Qed.
Lemma no_token_iff {F} (fo : FloatOps F) cc (Hcc : cc_ok cc) chk c :
  tokenize fo cc chk [c] = Done (Ok []) <-> In c white_space \/ c = c_hash.
Proof.
  rewrite <- white_space_iff, (tokenize_grammar fo cc Hcc). split.
  - intros (t & Ht & Hl). inversion Ht as [| |c' s t' _ Hs]; subst. inversion Hs; subst. inversion Hl; subst; auto.
  - intros H. exists [c]. split; [constructor; [right; discriminate|constructor]|]. destruct H as [H| ->].
    + apply ls_space; [assumption|constructor].
    + apply ls_comment_end. tauto.
Qed.
