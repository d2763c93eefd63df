(** Texts of literals and of whole scenes. *)
From Coq Require Import Reals Lra.
From Flocq Require Import Core.Core IEEE754.BinarySingleNaN.
From Verif Require Import Base TokModel ParModel LexSpec SceneSpec SceneObs FloatInst FloatLit OpsSpec DecSpec DecThms
  TokProofs LexProofs LexThms ParProofs DirProofs TextThms SceneThms KindProofs SceneProps PrintSpec PrintProofs.
Open Scope list_scope.

(** ** Literals *)
Lemma digits_no_dot ds : all_digits ds -> ~ In c_dot ds.
Proof. intros H Hi. apply (proj1 (Forall_forall _ _) H) in Hi. discriminate. Qed.
Lemma dec_body body m k : dec_num body m k -> In c_dot body ->
  exists a b, body = a ++ c_dot :: b /\ all_digits (a ++ b).
Proof.
  intros [a _ Ha|a b _ Ha Hb] Hi; [now apply digits_no_dot in Hi|]. exists a, b. split; [reflexivity|]. now apply Forall_app.
Qed.
Lemma dec_chars body m k c : dec_num body m k -> In c body -> c = c_dot \/ is_ascii_digit c = true.
Proof.
  intros [a _ Ha|a b _ Ha Hb] Hi.
  - right. now apply (proj1 (Forall_forall _ _) Ha).
  - apply in_app_or in Hi as [Hi|[Hi|Hi]]; [right; now apply (proj1 (Forall_forall _ _) Ha)|now left|
      right; now apply (proj1 (Forall_forall _ _) Hb)].
Qed.

Section Lit.
Context {F : Type} (fo : FloatOps F) (cc : CharClass) (Hcc : cc_ok cc).
Lemma dec_mantissa body m k : dec_num body m k -> In c_dot body -> mantissa cc body true.
Proof.
  intros H Hi. destruct (dec_body _ _ _ H Hi) as (a & b & -> & Hd). exists a, b. split; [reflexivity|].
  exact (digits_mantissa cc Hcc _ Hd).
Qed.
Lemma dec_lexeme chk sg neg body m k : sign sg neg -> dec_num body m k -> In c_dot body ->
  lexeme fo cc chk (sg ++ body) (TFloat (f_dec fo neg m k)) [].
Proof.
  intros Hs Hd Hi. apply lx_num. apply nu_dec; [assumption|eapply dec_mantissa; eauto|assumption|exact I].
Qed.
Lemma dec_no sg neg body m k c : sign sg neg -> dec_num body m k -> In c (sg ++ body) -> c <> c_lf /\ c <> c_cr.
Proof.
  intros Hs Hd Hi. apply in_app_or in Hi as [Hi|Hi].
  - destruct Hs; cbn in Hi; try tauto; destruct Hi as [<-|[]]; split; discriminate.
  - destruct (dec_chars _ _ _ _ Hd Hi) as [->|Hc]; [split; discriminate|]. split; intros ->; discriminate.
Qed.
Lemma float_lexeme_inv chk text z rest : lexeme fo cc chk text (TFloat z) rest -> ~ In c_e text ->
  exists sg neg body m k, text = sg ++ body /\ sign sg neg /\ dec_num body m k /\ In c_dot body /\ z = f_dec fo neg m k.
Proof.
  intros H He. inversion H as [| | | |t v r Hn]; subst. inversion Hn; subst.
  - do 5 eexists. split; [reflexivity|]. split; [eassumption|]. split; [eassumption|]. split; [|reflexivity].
    match goal with M : mantissa _ _ true |- _ => destruct M as (a & b & -> & _) end. apply in_or_app. right. now left.
  - elim He. rewrite !in_app_iff. right. right. now left.
  - elim He. rewrite !in_app_iff. right. right. now left.
Qed.
End Lit.

Section Ieee.
Variables (f : fmt) (pw : flt f -> flt f) (cc : CharClass) (Hcc : cc_ok cc).
Notation fo := (fo_ieee f pw).
Lemma literal_nearest chk text neg x : decimal_text text neg x ->
  exists z : flt f, tokenize fo cc chk text = Done (Ok [mkTok (mkPos 1 1) (TFloat z)]) /\ rounds_to f x z /\ Bsign z = neg.
Proof.
  intros (sg & body & m & k & -> & Hs & Hd & Hi & ->). exists (f_dec_ieee f neg m k). split; [|split; apply dec_rounds].
  apply (only_token fo cc Hcc); [exact (dec_lexeme fo cc Hcc chk sg neg body m k Hs Hd Hi)|].
  apply replace_crlf_id. intros H. now apply (dec_no sg neg body m k) in H as [_ H].
Qed.
Lemma tokens_nearest chk text (z : flt f) rest : lexeme fo cc chk text (TFloat z) rest -> ~ In c_e text ->
  exists neg x, decimal_text text neg x /\ rounds_to f x z /\ Bsign z = neg.
Proof.
  intros H He. destruct (float_lexeme_inv fo cc chk text z rest H He) as (sg & neg & body & m & k & -> & Hs & Hd & Hi & ->).
  exists neg, (decimal neg m k). split; [unfold decimal_text; eauto 10|]. split; apply dec_rounds.
Qed.
End Ieee.

(** ** Every decimal has a literal *)
Lemma dec_val_zeros n ds : dec_val (repeat c_0 n ++ ds) = dec_val ds.
Proof. unfold dec_val. rewrite fold_left_app. f_equal. induction n; cbn; [reflexivity|]. exact IHn. Qed.
Lemma decimal_has_text neg m k : exists sg body, sign sg neg /\ dec_num body m k /\ In c_dot body.
Proof.
  destruct (digits_exist m) as (ds & Hne & Hd & Hv). set (l := repeat c_0 k ++ ds).
  assert (Hl : all_digits l). { apply Forall_app. split; [|assumption]. apply Forall_forall. intros c Hc. now apply repeat_spec in Hc as ->. }
  exists (if neg then [c_minus] else []), (firstn (length ds) l ++ c_dot :: skipn (length ds) l).
  split; [destruct neg; constructor|]. split; [|apply in_or_app; right; now left].
  assert (E : firstn (length ds) l ++ skipn (length ds) l = l) by apply firstn_skipn.
  assert (Lk : length (skipn (length ds) l) = k). { rewrite skipn_length. unfold l. rewrite app_length, repeat_length. lia. }
  replace m with (Z.to_N (dec_val (firstn (length ds) l ++ skipn (length ds) l))).
  - set (b := skipn _ _) in *. rewrite <- Lk. subst b. constructor.
    + rewrite E. unfold l. destruct ds; [congruence|]. now destruct k.
    + rewrite <- E in Hl. now apply Forall_app in Hl as [Hl _].
    + rewrite <- E in Hl. now apply Forall_app in Hl as [_ Hl].
  - rewrite E. unfold l. rewrite dec_val_zeros, Hv. apply N2Z.id.
Qed.
Lemma some_text neg m k : exists text, decimal_text text neg (decimal neg m k).
Proof.
  destruct (decimal_has_text neg m k) as (sg & body & Hs & Hd & Hi). exists (sg ++ body). unfold decimal_text. eauto 10.
Qed.

Local Open Scope R_scope.
Lemma signed_mult neg a b : IZR (signed neg (a * b)) = IZR (signed neg a) * IZR b.
Proof. destruct neg; cbn [signed]; rewrite ?opp_IZR, mult_IZR; ring. Qed.
Lemma finite_decimal f (y : flt f) : is_finite y = true -> exists m k, B2R y = decimal (Bsign y) m k.
Proof.
  destruct y as [s| | |s m e H]; try discriminate; intros _; cbn [B2R Bsign].
  - exists 0%N, 0%nat. unfold decimal. replace (IZR (signed s (Z.of_N 0))) with 0 by (now destruct s). unfold Rdiv. ring.
  - destruct (Z_le_gt_dec 0 e) as [He|He].
    + exists (Z.to_N (Zpos m * 2 ^ e)), 0%nat. unfold decimal. rewrite Z2N.id by lia. rewrite signed_mult.
      change (2 ^ e)%Z with (radix2 ^ e)%Z. rewrite IZR_Zpower by assumption. unfold F2R; cbn [Fnum Fexp].
      replace (cond_Zopp s (Z.pos m)) with (signed s (Z.pos m)) by (now destruct s). unfold Rdiv. cbn [pow]. rewrite Rinv_1. ring.
    + exists (Z.to_N (Zpos m * 5 ^ (- e))), (Z.to_nat (- e)). unfold decimal.
      rewrite Z2N.id by (apply Z.mul_nonneg_nonneg; [lia|apply Z.pow_nonneg; lia]). rewrite signed_mult. unfold F2R; cbn [Fnum Fexp].
      replace e with (- (- e))%Z at 1 by ring. rewrite bpow_opp. rewrite <- IZR_Zpower by lia.
      change (radix2 ^ (- e))%Z with (2 ^ (- e))%Z.
      replace (10 ^ Z.to_nat (- e)) with (IZR (2 ^ (- e)) * IZR (5 ^ (- e))).
      * assert (0 < IZR (2 ^ (- e))) by (apply IZR_lt, Z.pow_pos_nonneg; lia).
        assert (0 < IZR (5 ^ (- e))) by (apply IZR_lt, Z.pow_pos_nonneg; lia).
        replace (cond_Zopp s (Z.pos m)) with (signed s (Z.pos m)) by (now destruct s). field. lra.
      * rewrite <- mult_IZR, <- Z.pow_mul_l. change (2 * 5)%Z with 10%Z. rewrite <- (Z2Nat.id (- e)) at 1 by lia. now rewrite pow_IZR.
Qed.
Lemma finite_has_text f (y : flt f) : is_finite y = true -> exists text, decimal_text text (Bsign y) (B2R y).
Proof. intros H. destruct (finite_decimal f y H) as (m & k & ->). apply some_text. Qed.
Lemma infinite_decimal f (s : bool) (z : flt f) : rounds_to f (decimal s (10 ^ 400) 0) z -> Bsign z = s -> z = B754_infinity s.
Proof.
  intros H Hs. assert (Hf : is_finite z = false).
  { destruct (is_finite z) eqn:E; [|reflexivity]. apply (rounds_finite_iff f _ z H) in E. exfalso.
    assert (A : Rabs (decimal s (10 ^ 400) 0) = IZR (10 ^ 400)).
    { unfold decimal, Rdiv. cbn [pow]. rewrite Rinv_1, Rmult_1_r, N2Z.inj_pow. change (Z.of_N 10 ^ Z.of_N 400)%Z with (10 ^ 400)%Z.
      assert (0 <= IZR (10 ^ 400)) by (apply IZR_le; vm_compute; discriminate).
      destruct s; cbn [signed]; [rewrite opp_IZR, Rabs_Ropp|]; now apply Rabs_pos_eq. }
    rewrite A in E. pose proof (limit_bounds f) as [_ L].
    assert (B : bpow radix2 (femax f) <= IZR (10 ^ 400)).
    { rewrite <- IZR_Zpower by (now destruct f). apply IZR_le. destruct f; vm_compute; discriminate. }
    lra. }
  assert (is_nan z = false) by (destruct H as [(_ & E & _)|[[_ ->]|[_ ->]]]; [congruence|reflexivity..]).
  destruct z; try discriminate. cbn in Hs. now subst.
Qed.
Lemma float_has_text f (z : flt f) : is_nan z = false -> exists sg neg body m k,
  sign sg neg /\ dec_num body m k /\ In c_dot body /\ z = f_dec_ieee f neg m k.
Proof.
  intros Hn. destruct (is_finite z) eqn:Hf.
  - destruct (finite_decimal f z Hf) as (m & k & E). destruct (decimal_has_text (Bsign z) m k) as (sg & body & Hs & Hd & Hi).
    exists sg, (Bsign z), body, m, k. (split; [exact Hs|]; split; [exact Hd|]; split; [exact Hi|]). symmetry. apply rounds_self; [assumption|rewrite E; apply dec_rounds|apply dec_rounds].
  - destruct z as [|s| |]; try discriminate. destruct (decimal_has_text s (10 ^ 400) 0) as (sg & body & Hs & Hd & Hi).
    exists sg, s, body, (10 ^ 400)%N, 0%nat. (split; [exact Hs|]; split; [exact Hd|]; split; [exact Hi|]). symmetry.
    destruct (dec_rounds f s (10 ^ 400) 0) as (R1 & R2 & _). exact (infinite_decimal f s _ R1 R2).
Qed.
Lemma float_lexeme_exists f pw cc (Hcc : cc_ok cc) chk (z : flt f) : is_nan z = false ->
  exists text, lexeme (fo_ieee f pw) cc chk text (TFloat z) [] /\ ~ In c_lf text.
Proof.
  intros H. destruct (float_has_text f z H) as (sg & neg & body & m & k & Hs & Hd & Hi & ->). exists (sg ++ body).
  split; [now apply (dec_lexeme (fo_ieee f pw) cc Hcc)|]. intros Hl. now apply (dec_no sg neg body m k) in Hl as [Hl _].
Qed.

(** ** Writing down tokens *)
Section Write.
Context {F : Type} (fo : FloatOps F) (cc : CharClass) (Hcc : cc_ok cc) (chk : bool).
Definition writable (ty : TokenType F) : Prop := exists text, lexeme fo cc chk text ty [] /\ ~ In c_lf text.
Lemma write_tokens (l : list (Token F)) : Forall (fun t => writable (tok_ty t)) l ->
  forall pre, exists text l', lexes fo cc chk pre text l' /\ kinds l' = kinds l /\ ~ In c_lf text.
Proof.
  induction 1 as [|t l (text & Hx & Hn) H IH]; intros pre.
  - exists [], []. repeat split; [constructor|tauto].
  - destruct (IH (pre ++ text ++ [32%N])) as (rest & l' & Hl & Hk & Hn'). rewrite app_assoc in Hl.
    exists (text ++ 32%N :: rest), (mkTok (pos_of pre) (tok_ty t) :: l'). split; [|split].
    + apply ls_token; [apply (lexeme_app fo cc Hcc chk text (tok_ty t) [] Hx 32%N rest eq_refl)|]. now apply ls_space.
    + unfold kinds in *. cbn [map tok_ty]. now f_equal.
    + rewrite in_app_iff. cbn. intuition discriminate.
Qed.
Lemma write_int z : fits z -> writable (TInt z).
Proof.
  intros Hz. destruct (digits_exist (Z.to_N (Z.abs z))) as (ds & Hne & Hd & Hv).
  assert (W : forall sg neg, sign sg neg -> signed neg (dec_val ds) = z -> writable (TInt z)).
  { intros sg neg Hs E. exists (sg ++ ds). split.
    - apply lx_num. eapply nu_int; [exact Hs|now apply digits_mantissa| |exact I]. split; [assumption|]. split; [assumption|]. split; [now symmetry|assumption].
    - intros Hi. apply in_app_or in Hi as [Hi|Hi]; [destruct Hs; cbn in Hi; intuition discriminate|].
      apply (proj1 (Forall_forall _ _) Hd) in Hi. discriminate. }
  rewrite Z2N.id in Hv by lia. destruct (Z_lt_le_dec z 0).
  - apply (W [c_minus] true); [constructor|]. cbn. lia.
  - apply (W [] false); [constructor|]. cbn. lia.
Qed.
Lemma write_str w : writable (TStr w).
Proof.
  exists (literal w). split; [apply literal_lexeme|]. unfold literal. intros [H|H]; [discriminate|].
  apply in_app_or in H as [H|[H|[]]]; [now apply escape_no_lf in H|discriminate].
Qed.
Lemma alnum_not_lf c : is_alphanumeric cc c = true -> c <> c_lf.
Proof. intros H ->. rewrite (ws_not_alnum cc Hcc c_lf eq_refl) in H. discriminate. Qed.
Lemma write_ident w : identifier cc w [] -> writable (TIdent w).
Proof.
  intros H. exists w. split; [now apply lx_ident|]. destruct H as (c & t & -> & Ha & _ & Ht & _). intros [E|Hi].
  - apply (alnum_not_lf c); [unfold is_alphanumeric; now rewrite Ha|assumption].
  - apply (proj1 (Forall_forall _ _) Ht) in Hi. now apply alnum_not_lf in Hi.
Qed.
Lemma ascii_ident w : w <> [] -> forallb is_ascii_alpha w = true -> identifier cc w [].
Proof.
  intros Hne H. rewrite forallb_forall in H. destruct w as [|c t]; [congruence|].
  assert (A : forall c, is_ascii_alpha c = true -> (c < 128)%N /\ is_ascii_digit c = false).
  { intros d Hd. unfold is_ascii_alpha, is_ascii_digit, c_0, c_9 in *.
    apply orb_true_iff in Hd as [Hd|Hd]; apply andb_true_iff in Hd as [H1 H2]; apply N.leb_le in H1, H2;
      (split; [lia|]); apply andb_false_iff; right; apply N.leb_gt; lia. }
  exists c, t. split; [reflexivity|]. pose proof (H c (or_introl eq_refl)) as Hc. destruct (A c Hc) as [Hs Hd].
  split; [now rewrite (cc_alpha_ascii cc Hcc)|]. split; [now rewrite (cc_num_ascii cc Hcc)|]. split; [|exact I].
  apply Forall_forall. intros d Hi. pose proof (H d (or_intror Hi)) as Hd'. unfold is_alphanumeric.
  now rewrite (cc_alpha_ascii cc Hcc), Hd' by apply A, Hd'.
Qed.

(** The tokens of a printed scene. *)
Variable Q : F -> Prop.
Hypothesis HQ : forall x, Q x -> writable (TFloat x).
Notation W := (Forall (fun t : Token F => writable (tok_ty t))).
Lemma w_kw k : forallb is_ascii_alpha (s2l k) = true -> s2l k <> [] -> writable (tok_ty (kw (F := F) k)).
Proof. intros H1 H2. now apply write_ident, ascii_ident. Qed.
Lemma w_nums l : Forall Q l -> W (nums l).
Proof. intros H. apply Forall_map. eapply Forall_impl; [|exact H]. intros x. apply HQ. Qed.
Lemma w_brackets l : W l -> W (brackets l).
Proof.
  intros H. constructor; [exists [c_lbrack]; split; [constructor|cbn; intuition discriminate]|]. apply Forall_app. split; [assumption|].
  constructor; [exists [c_rbrack]; split; [constructor|cbn; intuition discriminate]|constructor].
Qed.
Lemma w_vector {T} (pp : Param T -> list (Token F)) l : (forall p, In p l -> W (pp p)) -> W (flat_map pp l).
Proof. intros H. apply Forall_flat_map. now apply Forall_forall. Qed.
Lemma Forall_in_flat {A B} (P : B -> Prop) (g : A -> list B) l a : Forall P (flat_map g l) -> In a l -> Forall P (g a).
Proof. intros H Hi. apply Forall_flat_map in H. now apply (proj1 (Forall_forall _ _) H). Qed.
Lemma w_params s : Forall Q (params_floats s) -> Forall fits (params_ints s) -> W (print_params s).
Proof.
  intros Hf Hi. unfold params_floats in Hf. rewrite !Forall_app in Hf. destruct Hf as (H1 & H2 & H3 & H4).
  unfold print_params. rewrite !Forall_app. repeat split; apply w_vector; intros p Hp.
  - constructor; [apply write_str|]. apply w_brackets, Forall_map, Forall_forall. intros b _. apply write_str.
  - constructor; [apply write_str|]. apply w_brackets, Forall_map. eapply Forall_impl; [|exact (Forall_in_flat _ _ _ p Hi Hp)].
    intros z Hz. now apply write_int.
  - constructor; [apply write_str|]. apply w_brackets, w_nums. exact (Forall_in_flat _ _ _ p H1 Hp).
  - constructor; [apply write_str|]. apply w_brackets, w_nums. exact (Forall_in_flat _ _ _ p H2 Hp).
  - constructor; [apply write_str|]. apply w_brackets, w_nums. exact (Forall_in_flat _ _ _ p H3 Hp).
  - pose proof (Forall_in_flat _ _ _ p H4 Hp) as Hs. cbv beta in Hs. unfold print_spectrum.
    destruct (par_values p) as [|[a b c|a b c|l|w|a b] [|? ?]]; try exact (Forall_nil _); unfold print_param;
      cbn [flat_map spectrum_floats app] in Hs; rewrite ?app_nil_r in Hs; (constructor; [apply write_str|]);
      try (apply w_brackets, w_nums; exact Hs).
    + apply w_brackets, w_nums. cbn [spectrum_floats] in Hs. clear -Hs. induction l as [|[a b] l IH]; [constructor|].
      cbn in Hs |- *. inversion Hs as [|? ? ? Hs']; subst. inversion Hs' as [|? ? ? Hs'']; subst. auto.
    + constructor; [apply write_str|constructor].
  - constructor; [apply write_str|]. apply w_brackets, Forall_map, Forall_forall. intros b _. apply write_str.
  - constructor; [apply write_str|]. apply Forall_map, Forall_forall. intros b _. apply write_str.
Qed.
Lemma w_ds k d : forallb is_ascii_alpha (s2l k) = true -> s2l k <> [] ->
  Forall Q (params_floats (ds_params d)) -> Forall fits (params_ints (ds_params d)) -> W (print_ds k d).
Proof. intros. constructor; [now apply w_kw|]. constructor; [apply write_str|now apply w_params]. Qed.
Lemma w_dir d : (forall e, In e (nodes d) -> Forall Q (dir_floats e)) ->
  (forall e ps, In e (nodes d) -> dir_params e = Some ps -> Forall fits (params_ints ps)) -> W (print_dir d).
Proof.
  induction d as [d IH] using (@dir_ind' F). intros Hf Hi.
  assert (Hself : In d (nodes d)) by (destruct d; now left).
  assert (K : forall k, forallb is_ascii_alpha (s2l k) = true -> s2l k <> [] -> writable (tok_ty (kw (F := F) k))) by (intros; now apply w_kw).
  assert (Ch : forall l, children d = l -> (forall e, In e (flat_map nodes l) -> In e (nodes d)) -> W (flat_map print_dir l)).
  { intros l <- Hsub. apply Forall_flat_map. rewrite Forall_forall in IH |- *. intros e He. apply IH; [assumption| |].
    - intros e' He'. apply Hf, Hsub, in_flat_map. eauto.
    - intros e' ps He'. apply Hi, Hsub, in_flat_map. eauto. }
  assert (P : forall ps, dir_params d = Some ps -> Forall Q (params_floats ps) /\ Forall fits (params_ints ps)).
  { intros ps E. split; [|now apply (Hi d)]. specialize (Hf d Hself). unfold dir_floats in Hf. now rewrite E in Hf. }
  destruct d; cbn [print_dir];
    try (apply w_ds; [reflexivity|discriminate|now apply P..]);
    try (constructor; [now apply K|]; apply Forall_app; split; [apply Ch; [reflexivity|intros e He; now right]|];
         constructor; [now apply K|constructor]).
  - constructor; [now apply K|]. constructor; [apply write_str|constructor].
  - constructor; [now apply K|]. do 3 (constructor; [apply write_str|]). now apply w_params; apply P.
Qed.
Lemma w_pre d : Forall Q (pre_floats d) -> (forall ps, pre_params d = Some ps -> Forall fits (params_ints ps)) ->
  (forall p w, d = PActiveTransform p w -> identifier cc w []) -> W (print_pre d).
Proof.
  intros Hf Hi Hn.
  assert (K : forall k, forallb is_ascii_alpha (s2l k) = true -> s2l k <> [] -> writable (tok_ty (kw (F := F) k))) by (intros; now apply w_kw).
  destruct d as [p|p v|p v|p a v|p m|p w|p w|p m|p m|p w|p a b|s|s|s|s|s|s|p w]; cbn [print_pre];
    try (apply w_ds; [reflexivity|discriminate|exact Hf|now apply Hi]);
    try (destruct m as [[[? ?] ?] [[? ?] ?] [[? ?] ?]]);
    (constructor; [now apply K|]); try (apply w_nums; exact Hf); try (constructor; [|constructor]); try apply write_str.
  - constructor.
  - apply write_ident. now apply (Hn p).
Qed.
Lemma w_scene x : Forall Q (scene_floats x) -> fitting x -> named cc x -> W (print_scene x).
Proof.
  intros Hf Hi Hn. unfold scene_floats in Hf. apply Forall_app in Hf as [H1 H2]. unfold print_scene. apply Forall_app. split.
  - apply Forall_flat_map, Forall_forall. intros d Hd. apply w_pre.
    + exact (Forall_in_flat _ _ _ d H1 Hd).
    + intros ps E. apply Hi. left. eauto.
    + intros p w ->. now apply (Hn p).
  - apply w_dir.
    + intros e He. exact (Forall_in_flat _ _ _ e H2 He).
    + intros e ps He E. apply Hi. right. eauto.
Qed.
Lemma erase_param_idem {T} (l : list (Param T)) : map erase_param (map erase_param l) = map erase_param l.
Proof. rewrite map_map. reflexivity. Qed.
Lemma erase_ps_idem (s : ParamSet F) : erase_ps (erase_ps s) = erase_ps s.
Proof. unfold erase_ps. cbn. now rewrite !erase_param_idem. Qed.
Lemma erase_dir_idem (d : Directive F) : erase_dir (erase_dir d) = erase_dir d.
Proof.
  induction d as [d IH] using (@dir_ind' F). destruct d; cbn in IH |- *; unfold erase_ds, erase_ts; cbn; rewrite ?erase_ps_idem; try reflexivity;
    f_equal; rewrite map_map; apply map_ext_in; now apply Forall_forall.
Qed.
Lemma erase_twice (y : list (PreDirective F) * Directive F) x : erase_scene y = erase_scene (erase_scene x) -> erase_scene y = erase_scene x.
Proof.
  intros ->. unfold erase_scene. cbn [fst snd]. rewrite erase_dir_idem. f_equal. rewrite map_map. apply map_ext.
  intros d. destruct d; cbn; unfold erase_ds; cbn; now rewrite ?erase_ps_idem.
Qed.
Lemma scene_has_text x : printable x -> Forall Q (scene_floats x) -> fitting x -> named cc x ->
  exists text y, parse fo cc chk text = Done (Ok y) /\ erase_scene y = erase_scene x.
Proof.
  intros Hp Hf Hi Hn. destruct (write_tokens (print_scene x) (w_scene x Hf Hi Hn) []) as (text & l & Hl & Hk & Hlf).
  pose proof (kinds_parse fo (print_scene x) l Hk) as S. rewrite (print_parse fo x Hp) in S.
  destruct (parse_tokens fo l) as [[y|[m|]]| |] eqn:E; try contradiction.
  exists text, y. split; [|now apply erase_twice]. apply (parse_ok_iff fo cc Hcc). exists text, l. split; [|split; [assumption|now apply parse_tokens_iff]].
  apply no_pair_lf_text. intros a b ->. apply Hlf. rewrite in_app_iff. right. right. now left.
Qed.
End Write.
