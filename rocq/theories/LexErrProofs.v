(** The tokenizer rejects exactly the texts of [lex_error], with that message. *)
From Verif Require Import Base TokModel LexSpec LexErrSpec TokProofs NumProofs LexProofs LexThms.
Open Scope mon_scope.

Section Parse.
Context {F : Type} (fo : FloatOps F).

(** ** [str::parse] *)
Lemma int_loop_digit neg ds c t a : all_digits ds -> (0 <= a)%Z -> fits (signed neg (dec_from a ds)) ->
  is_ascii_digit c = false ->
  @parse_int_loop F (if neg then -1 else 1)%Z (ds ++ c :: t) (signed neg a) = Err (EStr msg_digit).
Proof.
  revert a; induction ds as [|d ds IH]; intros a Hd Ha Hf Hc; cbn [app parse_int_loop].
  - unfold digit_val. now rewrite Hc.
  - inversion Hd as [|? ? Hd1 Hd']; subst. rewrite digit_val_ok by assumption.
    pose proof (digit_val_range _ Hd1) as Hr.
    replace (signed neg a * 10 + (if neg then -1 else 1) * Z.of_N (d - c_0))%Z
      with (signed neg (10 * a + Z.of_N (d - c_0)))%Z by (destruct neg; cbn [signed]; lia).
    change (dec_from a (d :: ds)) with (dec_from (10 * a + Z.of_N (d - c_0)) ds) in Hf.
    pose proof (dec_from_ge ds (10 * a + Z.of_N (d - c_0)) Hd' ltac:(lia)) as Hge.
    rewrite (proj2 (in_range_fits _)) by (unfold fits in *; destruct neg; cbn [signed] in *; lia).
    apply IH; auto; lia.
Qed.
Lemma int_loop_range neg ds t a : all_digits ds -> (0 <= a)%Z -> fits (signed neg a) ->
  ~ fits (signed neg (dec_from a ds)) ->
  @parse_int_loop F (if neg then -1 else 1)%Z (ds ++ t) (signed neg a) = Err (EStr (msg_range neg)).
Proof.
  revert a; induction ds as [|d ds IH]; intros a Hd Ha Hfa Hf; cbn [app parse_int_loop]; [now elim Hf|].
  inversion Hd as [|? ? Hd1 Hd']; subst. rewrite digit_val_ok by assumption.
  pose proof (digit_val_range _ Hd1) as Hr.
  replace (signed neg a * 10 + (if neg then -1 else 1) * Z.of_N (d - c_0))%Z
    with (signed neg (10 * a + Z.of_N (d - c_0)))%Z by (destruct neg; cbn [signed]; lia).
  change (dec_from a (d :: ds)) with (dec_from (10 * a + Z.of_N (d - c_0)) ds) in Hf.
  destruct (in_range _) eqn:E.
  - apply IH; auto; [lia|]. now apply in_range_fits.
  - now destruct neg.
Qed.
Lemma int_loop_err neg s a e : (0 <= a)%Z -> fits (signed neg a) ->
  @parse_int_loop F (if neg then -1 else 1)%Z s (signed neg a) = Err e ->
  (exists ds c t, s = ds ++ c :: t /\ all_digits ds /\ fits (signed neg (dec_from a ds)) /\ is_ascii_digit c = false /\
     e = EStr msg_digit) \/
  (exists ds t, s = ds ++ t /\ all_digits ds /\ ~ fits (signed neg (dec_from a ds)) /\ e = EStr (msg_range neg)).
Proof.
  revert a; induction s as [|d s IH]; intros a Ha Hfa; cbn [parse_int_loop]; [discriminate|].
  destruct (is_ascii_digit d) eqn:Hd.
  2:{ unfold digit_val. rewrite Hd. intros [= <-]. left. exists [], d, s. split; [reflexivity|]. split; [constructor|]. auto. }
  rewrite digit_val_ok by assumption. pose proof (digit_val_range _ Hd) as Hr.
  replace (signed neg a * 10 + (if neg then -1 else 1) * Z.of_N (d - c_0))%Z
    with (signed neg (10 * a + Z.of_N (d - c_0)))%Z by (destruct neg; cbn [signed]; lia).
  destruct (in_range _) eqn:E.
  - intros H. apply in_range_fits in E.
    destruct (fun Hz => IH _ Hz E H) as [(ds & c & t & -> & H1 & H2 & H3 & H4)|(ds & t & -> & H1 & H2 & H3)].
    + lia.
    + left. exists (d :: ds), c, t. split; [reflexivity|]. split; [now constructor|]. auto.
    + right. exists (d :: ds), t. split; [reflexivity|]. split; [now constructor|]. auto.
  - intros [= <-]. right. exists [d], s. split; [reflexivity|]. split; [now repeat constructor|].
    split; [|now destruct neg]. change (dec_from a [d]) with (10 * a + Z.of_N (d - c_0))%Z.
    rewrite <- in_range_fits, E. discriminate.
Qed.

Lemma parse_isize_error neg body m : next_is (fun c => c <> c_minus /\ c <> c_plus) body ->
  int_error neg body m -> @parse_isize F (signed_chars neg body) = Err (EStr m).
Proof.
  assert (E : forall neg b, b <> [] -> next_is (fun c => c <> c_minus /\ c <> c_plus) b ->
     @parse_isize F (signed_chars neg b) = parse_int_loop (if neg then -1 else 1)%Z b (signed neg 0)).
  { intros [|] b Hb Hs; cbn [signed_chars signed]; [|now apply parse_isize_unsigned].
    destruct b as [|c b]; [congruence|]. reflexivity. }
  intros Hs Hi. revert Hs. destruct Hi as [|neg' ds c t Hd Hf Hc|neg' ds t Hd Hf]; intros Hs.
  - reflexivity.
  - rewrite E; [now apply int_loop_digit|now destruct ds|assumption].
  - destruct (ds ++ t) as [|c u] eqn:Eu.
    + destruct ds; [|discriminate]. elim Hf. destruct neg'; apply fits_0.
    + rewrite E by (assumption || discriminate). rewrite <- Eu. apply int_loop_range; auto; [lia|]. destruct neg'; apply fits_0.
Qed.
Lemma parse_isize_error_inv neg body e : next_is (fun c => c <> c_minus /\ c <> c_plus) body ->
  signed_chars neg body <> [] -> @parse_isize F (signed_chars neg body) = Err e ->
  exists m, e = EStr m /\ int_error neg body m.
Proof.
  intros Hs Hne H.
  assert (E : body = [] \/ @parse_int_loop F (if neg then -1 else 1)%Z body (signed neg 0) = Err e).
  { destruct body as [|c b]; [now left|right]. destruct neg; cbn [signed_chars] in H.
    - exact H.
    - now rewrite parse_isize_unsigned in H by (assumption || discriminate). }
  destruct E as [->|E].
  - destruct neg; [|now elim Hne]. cbn in H. injection H as <-. eexists. split; [reflexivity|]. constructor.
  - apply int_loop_err in E as [(ds & c & t & -> & H1 & H2 & H3 & H4)|(ds & t & -> & H1 & H2 & H3)]; [| |lia|destruct neg; apply fits_0].
    + eexists. split; [exact H4|]. now apply ie_digit.
    + eexists. split; [exact H3|]. now apply ie_range.
Qed.

Lemma parse_float_error neg body : next_is (fun c => c <> c_minus /\ c <> c_plus) body ->
  signed_chars neg body <> [] -> float_error body -> parse_float_str fo (signed_chars neg body) = Err (EStr msg_float).
Proof.
  intros Hs Hne Hf. destruct (parse_float_str fo (signed_chars neg body)) as [f|e] eqn:E.
  - destruct (parse_float_inv fo neg body f Hs E) as (m & k & Hd & _). now elim (Hf m k).
  - unfold parse_float_str in E. destruct (match signed_chars neg body with [] => _ | _ => _ end) as [n b].
    destruct (signed_chars neg body); [congruence|].
    destruct (scan_dec b 0 0 0 false) as [[[m [|nd]] k]|]; try discriminate; now injection E as <-.
Qed.
Lemma parse_float_error_inv neg body e : signed_chars neg body <> [] ->
  parse_float_str fo (signed_chars neg body) = Err e -> e = EStr msg_float /\ float_error body.
Proof.
  intros Hne E. split.
  - unfold parse_float_str in E. destruct (match signed_chars neg body with [] => _ | _ => _ end) as [n b].
    destruct (signed_chars neg body); [congruence|].
    destruct (scan_dec b 0 0 0 false) as [[[m [|nd]] k]|]; try discriminate; now injection E as <-.
  - intros m k Hd. rewrite (parse_float_ok fo neg body m k Hd) in E. discriminate.
Qed.
End Parse.

Section Num.
Context {F : Type} (fo : FloatOps F) (cc : CharClass) (chk : bool) (Hcc : cc_ok cc).
Notation loop := (num_loop fo cc chk).
Notation prelude n := (num_prelude (num_loop fo cc chk n)).

Lemma parts_exist s : exists sg neg body dot rest, num_parts cc s sg neg body dot rest.
Proof.
  destruct (split_number cc s) as (sg & neg & body & dot & rest & E & Hs & Hm & Hr & Hsg).
  exists sg, neg, body, dot, rest. now constructor.
Qed.
Lemma parts_run s sg neg body dot rest : num_parts cc s sg neg body dot rest -> forall n pre, length s < n ->
  exists k, length rest <= k /\ k < n /\
    prelude n (mk pre s) = loop (S k) (pos_of pre) (signed_chars neg body) dot (mk (pre ++ sg ++ body) rest).
Proof.
  intros [-> Hs Hm Hb Hr] n pre Hn. rewrite !app_length in Hn. exists (n - length body - 1).
  split; [lia|]. split; [lia|].
  replace n with (length body + S (n - length body - 1)) at 1 by lia.
  apply (prelude_mantissa fo cc chk Hcc); [assumption|assumption|]. intros -> ->. exact (Hm eq_refl).
Qed.
Lemma parts_ns s sg neg body dot rest : num_parts cc s sg neg body dot rest ->
  next_is (fun c => c <> c_minus /\ c <> c_plus) body.
Proof. intros H. eapply body_not_sign'; [exact Hcc|apply (np_body _ _ _ _ _ _ _ H)]. Qed.
Lemma chars_ne neg body : neg = true \/ body <> [] -> signed_chars neg body <> [].
Proof. intros H E. apply signed_chars_nil in E. destruct E, H; congruence. Qed.

Lemma num_finish_eq sp nc dot st : nc <> [] -> num_finish fo sp nc dot st =
  if dot then (f <-? ret (parse_float_str fo nc) ;; ret (Ok (mkTok sp (TFloat f)))) st
  else (i <-? ret (parse_isize nc) ;; ret (Ok (mkTok sp (TInt i)))) st.
Proof. intros H. unfold num_finish. destruct nc; [congruence|]. now destruct dot. Qed.

Lemma int_error_ne neg body (m : list (piece F)) : int_error neg body m -> neg = true \/ body <> [].
Proof.
  intros [|neg' ds c t Hd Hf Hc|neg' ds t Hd Hf]; [now left|right; now destruct ds|].
  destruct ds; [|right; discriminate]. elim Hf. destruct neg'; apply fits_0.
Qed.

Lemma num_error_complete pre s m : num_error fo cc chk pre s m -> forall n, length s < n ->
  exists st, prelude n (mk pre s) = Done (Err (EStr m), st).
Proof.
  induction 1 as [pre s sg rest Hp|pre s sg neg body rest Hp|pre s sg neg body rest m Hp He Hi|pre s sg neg body rest Hp He Hf
    |pre s sg neg body dot s' m Hp Hne H IH|pre s sg neg body text e rest m Hp Hne Hnum He Hi
    |pre s sg neg body dot text v rest Hp Hne Hnum Hv Hf]; intros n Hn;
    destruct (parts_run _ _ _ _ _ _ Hp n pre Hn) as (k & Hk & Hkn & ->); pose proof (parts_ns _ _ _ _ _ _ Hp) as Hns;
    pose proof (np_rest _ _ _ _ _ _ _ Hp) as Hr.
  - cbn [num_loop signed_chars]. rewrite app_nil_r. destruct rest as [|c rest].
    + tk_step. unfold num_finish. tk_step. eexists; reflexivity.
    + cbn in Hr. destruct Hr as [Hr1 Hr2]. tk_step. rewrite Hr1. destruct (N.eqb_spec c c_dot) as [->|Hd]; [now specialize (Hr2 eq_refl)|].
      destruct (c =? c_e)%N; [|unfold num_finish]; tk_step; eexists; reflexivity.
  - cbn [num_loop]. cbn in Hr. destruct Hr as [Hr1 _]. tk_step. rewrite Hr1. rewrite N.eqb_refl. tk_step. eexists; reflexivity.
  - rewrite loop_stop.
    + rewrite num_finish_eq by (apply chars_ne; eapply int_error_ne; exact Hi).
      erewrite tryb_Err; [eauto|]. unfold ret. rewrite (parse_isize_error neg body m Hns Hi). reflexivity.
    + destruct rest as [|c rest]; [exact I|]. cbn in *. destruct Hr as [Hr1 Hr2]. repeat split; auto.
      intros ->. now specialize (Hr2 eq_refl).
  - assert (Hb : body <> []).
    { destruct (np_body _ _ _ _ _ _ _ Hp) as (a & b & -> & _). now destruct a. }
    rewrite loop_stop.
    + rewrite num_finish_eq by (apply chars_ne; now right).
      erewrite tryb_Err; [eauto|]. unfold ret. rewrite (parse_float_error fo neg body Hns) by (auto; apply chars_ne; now right). reflexivity.
    + destruct rest as [|c rest]; [exact I|]. cbn in *. destruct Hr as [Hr1 Hr2]. tauto.
  - rewrite loop_e by (assumption || now apply chars_ne).
    cbn [length] in Hk. destruct (IH k ltac:(lia)) as [st Hst]. exists st. apply tryb_Err.
    rewrite <- !app_assoc. exact Hst.
  - rewrite loop_e by (assumption || now apply chars_ne). cbn [length] in Hk. rewrite app_length in Hk.
    erewrite tryb_Ok by (apply number_complete; [assumption|eassumption|lia]).
    cbv beta. unfold num_exponent; cbn [tok_ty]. apply Z.leb_le in He; rewrite He; cbn [negb andb].
    erewrite tryb_Err; [eauto|]. unfold ret. rewrite (parse_isize_error neg body m Hns Hi). reflexivity.
  - rewrite loop_e by (assumption || now apply chars_ne). cbn [length] in Hk. rewrite app_length in Hk.
    erewrite tryb_Ok by (apply number_complete; [assumption|eassumption|lia]).
    cbv beta. unfold num_exponent; cbn [tok_ty].
    assert (E : forall st : tokenizer, @ret tokenizer _ (parse_float_str fo (signed_chars neg body)) st = Done (Err (EStr msg_float), st)).
    { intros st. unfold ret. now rewrite (parse_float_error fo neg body Hns (chars_ne _ _ Hne) Hf). }
    destruct (number_ty _ _ _ _ _ _ Hnum) as [[i ->]|[f ->]].
    + assert (Hi : ((0 <=? i)%Z && negb dot)%bool = false).
      { destruct Hv as [->|Hv]; [apply andb_false_r|]. specialize (Hv i eq_refl). apply andb_false_iff. left. now apply Z.leb_gt. }
      rewrite Hi. erewrite tryb_Err by apply E. eauto.
    + erewrite tryb_Err by apply E. eauto.
Qed.

Lemma num_error_sound n : forall pre s, length s < n -> forall e st,
  prelude n (mk pre s) = Done (Err e, st) -> exists m, e = EStr m /\ num_error fo cc chk pre s m.
Proof.
  induction n as [n IHn] using lt_wf_ind. intros pre s Hn e st.
  destruct (parts_exist s) as (sg & neg & body & dot & rest & Hp).
  destruct (parts_run _ _ _ _ _ _ Hp n pre Hn) as (k & Hk & Hkn & ->). pose proof (parts_ns _ _ _ _ _ _ Hp) as Hns.
  pose proof (np_rest _ _ _ _ _ _ _ Hp) as Hr.
  assert (Hcase : (neg = false /\ body = []) \/ (neg = true \/ body <> [])).
  { destruct neg; [auto|]. destruct body; [auto|right; right; discriminate]. }
  destruct Hcase as [[-> ->]|Hne].
  { assert (dot = false) as ->.
    { pose proof (np_body _ _ _ _ _ _ _ Hp) as Hb. destruct dot; [|reflexivity]. destruct Hb as (a & b & E & _). now destruct a. }
    cbn [num_loop signed_chars]. rewrite app_nil_r. destruct rest as [|c rest].
    - tk_step. unfold num_finish. tk_step. intros [= <- _]. eexists. split; [reflexivity|]. eapply ne_none; eauto.
    - cbn in Hr. destruct Hr as [Hr1 Hr2]. tk_step. rewrite Hr1.
      destruct (N.eqb_spec c c_dot) as [->|Hd]; [now specialize (Hr2 eq_refl)|].
      destruct (c =? c_e)%N; [|unfold num_finish]; tk_step; intros [= <- _]; eexists; (split; [reflexivity|]); eapply ne_none; eauto. }
  pose proof (chars_ne _ _ Hne) as Hch.
  assert (Hfin : next_is (fun c => c <> c_dot /\ c <> c_e) rest -> stops cc rest ->
     num_finish fo (pos_of pre) (signed_chars neg body) dot (mk (pre ++ sg ++ body) rest) = Done (Err e, st) ->
     exists m, e = EStr m /\ num_error fo cc chk pre s m).
  { intros Hd Hst. rewrite num_finish_eq by assumption. unfold tryb, bind, ret. destruct dot.
    - destruct (parse_float_str fo (signed_chars neg body)) as [f|e'] eqn:E; [discriminate|]. intros [= -> _].
      apply parse_float_error_inv in E as [-> Hf]; [|assumption]. eexists. split; [reflexivity|]. eapply ne_float; eauto.
    - destruct (@parse_isize F (signed_chars neg body)) as [f|e'] eqn:E; [discriminate|]. intros [= -> _].
      apply parse_isize_error_inv in E as (m & -> & Hi); [|assumption|assumption]. exists m. split; [reflexivity|].
      eapply ne_int; eauto. destruct rest; [exact I|]. cbn in *. tauto. }
  destruct rest as [|c rest].
  { rewrite loop_stop by exact I. apply Hfin; exact I. }
  cbn in Hr. destruct Hr as [Hr1 Hr2].
  destruct (N.eq_dec c c_dot) as [->|Hcd].
  { specialize (Hr2 eq_refl). subst dot. cbn [num_loop]. tk_step. rewrite Hr1, N.eqb_refl. tk_step.
    intros [= <- _]. eexists. split; [reflexivity|]. eapply ne_second_dot; eauto. }
  destruct (N.eq_dec c c_e) as [->|Hce].
  2:{ rewrite loop_stop by (cbn; auto). apply Hfin; cbn; auto. }
  clear Hfin. rewrite loop_e by assumption. cbn [length] in Hk. unfold tryb at 1, bind at 1.
  destruct (num_sound fo cc chk Hcc k ((pre ++ sg ++ body) ++ [c_e]) rest ltac:(lia))
    as [(text & v & rest' & -> & Hnum & Heq)|[(m & pre' & s' & Heq & Hpp)|(Hchk & text & rest' & -> & Hov & Heq)]]; rewrite Heq.
  - unfold num_exponent; cbn [tok_ty].
    assert (Hfl : forall g : F -> M tokenizer (result (Token F) (error F)),
        (forall x st', exists t, g x st' = Done (Ok t, st')) -> (dot = true \/ forall i, v = TInt i -> (i < 0)%Z) ->
        (m <-? ret (parse_float_str fo (signed_chars neg body)) ;; g m) (mk (((pre ++ sg ++ body) ++ [c_e]) ++ text) rest') = Done (Err e, st) ->
        exists m, e = EStr m /\ num_error fo cc chk pre s m).
    { intros g Hg Hv. unfold tryb, bind, ret.
      destruct (parse_float_str fo (signed_chars neg body)) as [f|e'] eqn:E.
      - destruct (Hg f (mk (((pre ++ sg ++ body) ++ [c_e]) ++ text) rest')) as [t ->]. discriminate.
      - intros [= -> _]. apply parse_float_error_inv in E as [-> Hf]; [|assumption]. eexists. split; [reflexivity|].
        eapply ne_float_exp; eauto. }
    destruct (number_ty _ _ _ _ _ _ Hnum) as [[i ->]|[f ->]].
    + destruct ((0 <=? i)%Z && negb dot)%bool eqn:Hi.
      * apply andb_true_iff in Hi as [Hi Hd]. apply Z.leb_le in Hi. destruct dot; [discriminate|].
        unfold tryb at 1, bind at 1, ret at 1. destruct (@parse_isize F (signed_chars neg body)) as [m|e'] eqn:Ef.
        -- rewrite mul_pow_spec. destruct chk; [|discriminate]. destruct (_ && _)%bool; discriminate.
        -- intros [= -> _]. apply parse_isize_error_inv in Ef as (m & -> & Hi'); [|assumption|assumption]. exists m. split; [reflexivity|].
           eapply ne_int_exp; eauto.
      * apply Hfl; [intros; eexists; reflexivity|]. destruct dot; [now left|right]. intros j [= ->]. rewrite andb_true_r in Hi. now apply Z.leb_gt in Hi.
    + apply Hfl; [intros; eexists; reflexivity|]. right. discriminate.
  - intros [= <- <-]. exists m. split; [reflexivity|].
    destruct (IHn k Hkn _ rest ltac:(lia) _ _ Heq) as (m' & [= <-] & H'). eapply ne_exponent; eauto. now rewrite <- !app_assoc in H'.
  - discriminate.
Qed.
End Num.

Section One.
Context {F : Type} (fo : FloatOps F) (cc : CharClass) (Hcc : cc_ok cc).
Notation one chk := (tokenize_one fo cc chk).

(** ** Strings *)
Lemma open_of s : unterminated s -> exists esc, open_string s esc.
Proof. induction 1 as [| |c s Hb Hq H [esc IH]|c s H [esc IH]]; eexists; [apply os_end|apply os_escape_end|eapply os_plain; eauto|eapply os_escape; eauto]. Qed.
Lemma open_escape s esc : open_string s esc -> esc = true -> exists s', s = s' ++ [c_bslash].
Proof.
  induction 1 as [| |c s esc Hb Hq H IH|c s esc H IH]; intros E; try discriminate.
  - now exists [].
  - destruct (IH E) as [s' ->]. now exists (c :: s').
  - destruct (IH E) as [s' ->]. now exists (c_bslash :: c :: s').
Qed.
Definition open_msg (esc : bool) (pre : str) : list (piece F) :=
  if esc then [PPos (pos_of (removelast pre)); PText " tokenize_str(): EOF while processing escape seq"]
  else [PPos (pos_of pre); PText " tokenize_str(): EOF while processing string"].
Lemma str_loop_open n sp acc pre s esc : open_string s esc -> length s < n ->
  @str_loop F n sp acc (mk pre s) = Done (Err (EStr (open_msg esc (pre ++ s))), mk (pre ++ s) []).
Proof.
  intros H; revert n acc pre; induction H as [| |c s esc Hb Hq H IH|c s esc H IH];
    intros n acc pre Hn; (destruct n as [|n]; [cbn in Hn; lia|]); cbn [str_loop].
  - tk_step. tk_step. rewrite app_nil_r. reflexivity.
  - tk_step. rewrite N.eqb_refl. tk_step. tk_step. reflexivity.
  - tk_step. destruct (N.eqb_spec c c_bslash); [congruence|]. destruct (N.eqb_spec c c_quote); [congruence|].
    rewrite IH by (cbn in Hn; lia). now rewrite <- app_assoc.
  - tk_step. rewrite N.eqb_refl. tk_step.
    replace (pre ++ c_bslash :: c :: s) with (((pre ++ [c_bslash]) ++ [c]) ++ s) by now rewrite <- !app_assoc.
    destruct (N.eqb_spec c c_n); apply IH; cbn in Hn; lia.
Qed.

(** ** One token *)
Lemma starts_num_in c : starts_num cc c = true <-> In c [c_minus; c_plus; c_dot] \/ is_numeric cc c = true.
Proof.
  unfold starts_num. cbn [In]. rewrite !orb_true_iff, !N.eqb_eq. intuition.
Qed.
Lemma nothing_iff c : starts_nothing cc c <->
  (c <> c_hash /\ c <> c_quote /\ c <> c_lbrack /\ c <> c_rbrack) /\ starts_num cc c = false /\ is_whitespace c = false /\
  is_alphabetic cc c = false.
Proof.
  rewrite <- not_true_iff_false with (b := starts_num cc c), starts_num_in. unfold starts_nothing. cbn [In].
  destruct (is_numeric cc c); intuition (try congruence).
Qed.

Lemma token_error_run chk pre s m : token_error fo cc chk pre s m -> forall n, length s < n ->
  exists st, one chk (S n) (mk pre s) = Done (Err (EStr m), st).
Proof.
  intros [pre' c s' Hn|pre' s' Ho|pre' s' Ho|pre' c s' m' Hc H] n Hl.
  - apply nothing_iff in Hn as ((H1 & H2 & H3 & H4) & H5 & H6 & H7). cbn [tokenize_one]. tk_step.
    apply N.eqb_neq in H1, H2, H3, H4. rewrite H1, H2, H3, H4, H5, H6, H7. tk_step. eexists; reflexivity.
  - rewrite one_quote. cbn [length] in Hl. rewrite (str_loop_open _ _ _ _ _ _ Ho) by lia. cbn [open_msg].
    rewrite <- app_assoc. eexists; reflexivity.
  - rewrite one_quote. cbn [length] in Hl. rewrite (str_loop_open _ _ _ _ _ _ Ho) by lia. cbn [open_msg].
    replace ((pre' ++ [c_quote]) ++ s' ++ [c_bslash]) with ((pre' ++ c_quote :: s') ++ [c_bslash]) by now rewrite <- !app_assoc.
    rewrite removelast_snoc. eexists; reflexivity.
  - rewrite one_num; [now apply num_error_complete|exact Hcc|now apply starts_num_in].
Qed.
Lemma token_error_start chk pre s m : token_error fo cc chk pre s m ->
  exists c u, s = c :: u /\ is_whitespace c = false /\ c <> c_hash.
Proof.
  intros [pre' c s' Hn|pre' s' Ho|pre' s' Ho|pre' c s' m' Hc H]; do 2 eexists; (split; [reflexivity|]).
  - apply nothing_iff in Hn. tauto.
  - split; [reflexivity|discriminate].
  - split; [reflexivity|discriminate].
  - apply starts_num_in in Hc. split; [now apply (starts_num_not_ws cc Hcc)|].
    intros ->. apply (starts_num_not_special cc Hcc) in Hc. apply Hc. now left.
Qed.
Lemma token_error_not_lexeme chk pre text ty rest m : lexeme fo cc chk text ty rest -> ~ token_error fo cc chk pre (text ++ rest) m.
Proof.
  intros Hx He. destruct (token_error_run _ _ _ _ He (S (length (text ++ rest)))) as [st Hst]; [lia|].
  rewrite (lexeme_complete fo cc Hcc _ _ _ _ Hx) in Hst; [discriminate|]. rewrite app_length. lia.
Qed.

(** ** Skipping *)
Lemma le_ws chk pre c s m : is_whitespace c = true ->
  (lex_error fo cc chk pre (c :: s) m <-> lex_error fo cc chk (pre ++ [c]) s m).
Proof.
  intros Hw. split; [|now apply le_space]. intros H. inversion H as [? ? ? ? Hc Hl|? body ? ? Hb Hl|? text ty s' ? Hx Hl E|? ? ? Ht]; subst.
  - assumption.
  - discriminate.
  - destruct (lexeme_start _ _ _ _ _ _ Hx) as (c' & u & -> & Hc). match goal with E : (_ :: _) ++ _ = _ :: _ |- _ => injection E as -> _ end.
    apply (starts_lexeme_facts cc Hcc) in Hc. destruct Hc; congruence.
  - destruct (token_error_start _ _ _ _ Ht) as (c' & u & [= <- _] & Hc & _). congruence.
Qed.
Lemma le_ws_run chk pre ws s m : Forall (fun c => is_whitespace c = true) ws ->
  (lex_error fo cc chk pre (ws ++ s) m <-> lex_error fo cc chk (pre ++ ws) s m).
Proof.
  revert pre; induction ws as [|c ws IH]; intros pre Hw; cbn [app]; [now rewrite app_nil_r|].
  inversion Hw; subst. rewrite le_ws by assumption. rewrite IH by assumption. now rewrite <- app_assoc.
Qed.
Lemma le_hash chk pre body s m : ~ In c_lf body ->
  (lex_error fo cc chk pre (c_hash :: body ++ c_lf :: s) m <-> lex_error fo cc chk (pre ++ c_hash :: body ++ [c_lf]) s m).
Proof.
  intros Hn. split; [|now apply le_comment]. intros H.
  inversion H as [? ? ? ? Hc Hl|? body' s' ? Hb Hl E|? text ty s' ? Hx Hl E|? ? ? Ht]; subst.
  - discriminate.
  - match goal with He : _ ++ c_lf :: _ = _ ++ c_lf :: _ |- _ => apply lf_split_unique in He as [-> ->]; assumption end.
  - destruct (lexeme_start _ _ _ _ _ _ Hx) as (c' & u & -> & Hc). match goal with E : (_ :: _) ++ _ = _ :: _ |- _ => injection E as -> _ end.
    apply (starts_lexeme_facts cc Hcc) in Hc. destruct Hc; congruence.
  - destruct (token_error_start _ _ _ _ Ht) as (c' & u & [= <- _] & _ & Hc). congruence.
Qed.
Lemma le_hash_end chk pre body m : ~ In c_lf body -> ~ lex_error fo cc chk pre (c_hash :: body) m.
Proof.
  intros Hn H. inversion H as [? ? ? ? Hc Hl|? body' s' ? Hb Hl E|? text ty s' ? Hx Hl E|? ? ? Ht]; subst.
  - discriminate.
  - apply Hn. apply in_or_app. right. now left.
  - destruct (lexeme_start _ _ _ _ _ _ Hx) as (c' & u & -> & Hc). match goal with E : (_ :: _) ++ _ = _ :: _ |- _ => injection E as -> _ end.
    apply (starts_lexeme_facts cc Hcc) in Hc. destruct Hc; congruence.
  - destruct (token_error_start _ _ _ _ Ht) as (c' & u & [= <- _] & _ & Hc). congruence.
Qed.
Lemma le_nil chk pre m : ~ lex_error fo cc chk pre [] m.
Proof.
  intros H. inversion H as [| |? text ty s' ? Hx Hl E|? ? ? Ht]; subst.
  - destruct (lexeme_start _ _ _ _ _ _ Hx) as (c' & u & -> & Hc). discriminate.
  - destruct (token_error_start _ _ _ _ Ht) as (c' & u & Hc & _). discriminate.
Qed.
Lemma le_cons chk pre c s m : is_whitespace c = false -> c <> c_hash -> lex_error fo cc chk pre (c :: s) m ->
  (exists text ty rest, c :: s = text ++ rest /\ lexeme fo cc chk text ty rest /\ lex_error fo cc chk (pre ++ text) rest m)
  \/ token_error fo cc chk pre (c :: s) m.
Proof.
  intros Hw Hc H. inversion H as [? ? ? ? Hc' Hl|? body' s' ? Hb Hl E|? text ty s' ? Hx Hl E|? ? ? Ht]; subst; try congruence.
  - left. eauto 6.
  - now right.
Qed.
Lemma le_lexeme chk pre text ty rest m : lexeme fo cc chk text ty rest ->
  (lex_error fo cc chk pre (text ++ rest) m <-> lex_error fo cc chk (pre ++ text) rest m).
Proof.
  intros Hx. split; [|now apply le_token with (ty := ty)]. intros H.
  destruct (lexeme_start _ _ _ _ _ _ Hx) as (c & u & He & Hc). apply (starts_lexeme_facts cc Hcc) in Hc as [Hc Hw].
  rewrite He in H. cbn [app] in H. apply le_cons in H; [|assumption|assumption].
  destruct H as [(text' & ty' & rest' & He' & Hx' & Hl)|Ht].
  - change (c :: u ++ rest) with ((c :: u) ++ rest) in He'. rewrite <- He in He'.
    destruct (lexeme_det fo cc Hcc _ _ _ _ _ _ _ Hx Hx' He') as (-> & _ & ->). assumption.
  - elim (token_error_not_lexeme chk pre text ty rest m Hx). now rewrite He.
Qed.

(** *** What [tokenize_one] does, with respect to errors *)
Definition one_out (chk : bool) (pre s : str) (o : out (result (Token F) (error F) * tokenizer)) : Prop :=
  (exists sk text ty rest, s = sk ++ text ++ rest /\ text <> [] /\
     (forall m, lex_error fo cc chk pre s m <-> lex_error fo cc chk (pre ++ sk ++ text) rest m) /\
     o = Done (Ok (mkTok (pos_of (pre ++ sk)) ty), mk (pre ++ sk ++ text) rest))
  \/ ((exists st, o = Done (Err EEof, st)) /\ (forall m, ~ lex_error fo cc chk pre s m))
  \/ (exists m0, (exists st, o = Done (Err (EStr m0), st)) /\ (forall m, lex_error fo cc chk pre s m <-> m = m0))
  \/ (o = Panic /\ (forall m, ~ lex_error fo cc chk pre s m)).

Lemma out_here chk pre text ty rest n : lexeme fo cc chk text ty rest -> length text < n ->
  one_out chk pre (text ++ rest) (one chk (S n) (mk pre (text ++ rest))).
Proof.
  intros Hx Hn. left. exists [], text, ty, rest. rewrite app_nil_r. cbn [app].
  split; [reflexivity|]. split.
  - destruct (lexeme_start _ _ _ _ _ _ Hx) as (c & u & -> & _). discriminate.
  - split; [intros m; now apply le_lexeme with (ty := ty)|]. now apply lexeme_complete.
Qed.
Lemma out_err chk pre c s n m0 st : is_whitespace c = false -> c <> c_hash -> length (c :: s) < n ->
  one chk (S n) (mk pre (c :: s)) = Done (Err (EStr m0), st) -> token_error fo cc chk pre (c :: s) m0 ->
  one_out chk pre (c :: s) (one chk (S n) (mk pre (c :: s))).
Proof.
  intros Hw Hc Hn Ho Ht. right; right; left. exists m0. split; [eauto|]. intros m. split.
  - intros H. apply le_cons in H as [(text & ty & rest & E & Hx & Hl)|H']; [| |assumption|assumption].
    + rewrite E in Ho. rewrite (lexeme_complete fo cc Hcc _ _ _ _ Hx) in Ho; [discriminate|].
      apply (f_equal (@length _)) in E. rewrite app_length in E. lia.
    + destruct (token_error_run _ _ _ _ H' n Hn) as [st' E]. rewrite Ho in E. congruence.
  - intros ->. now apply le_here.
Qed.
Lemma out_panic chk pre c s n : is_whitespace c = false -> c <> c_hash -> length (c :: s) < n ->
  one chk (S n) (mk pre (c :: s)) = Panic -> one_out chk pre (c :: s) (one chk (S n) (mk pre (c :: s))).
Proof.
  intros Hw Hc Hn Ho. right; right; right. split; [assumption|]. intros m H.
  apply le_cons in H as [(text & ty & rest & E & Hx & Hl)|H']; [| |assumption|assumption].
  - rewrite E in Ho. rewrite (lexeme_complete fo cc Hcc _ _ _ _ Hx) in Ho; [discriminate|].
    apply (f_equal (@length _)) in E. rewrite app_length in E. lia.
  - destruct (token_error_run _ _ _ _ H' n Hn) as [st' E]. congruence.
Qed.
Lemma out_skip chk pre sk s s0 o : s0 = sk ++ s ->
  (forall m, lex_error fo cc chk pre s0 m <-> lex_error fo cc chk (pre ++ sk) s m) ->
  one_out chk (pre ++ sk) s o -> one_out chk pre s0 o.
Proof.
  intros -> Hl [(sk' & text & ty & rest & -> & Hne & Hl' & ->)|[((st & ->) & Hl')|[(m0 & (st & ->) & Hl')|(-> & Hl')]]].
  - left. exists (sk ++ sk'), text, ty, rest. rewrite <- !app_assoc in *. split; [reflexivity|]. split; [assumption|].
    split; [|reflexivity]. intros m. now rewrite Hl, Hl'.
  - right; left. split; [eauto|]. intros m. now rewrite Hl.
  - right; right; left. exists m0. split; [eauto|]. intros m. now rewrite Hl.
  - right; right; right. split; [reflexivity|]. intros m. now rewrite Hl.
Qed.

Lemma one_errors chk n : forall pre s, length s + 1 < n -> one_out chk pre s (one chk n (mk pre s)).
Proof.
  induction n as [n IHn] using lt_wf_ind. intros pre s Hn.
  destruct n as [|n]; [lia|]. destruct s as [|c s].
  { cbn [tokenize_one]. tk_step. right; left. split; [eexists; reflexivity|]. intros m. apply le_nil. }
  cbn [length] in Hn.
  destruct (is_whitespace c) eqn:Hw.
  { destruct (span_pred is_whitespace (c :: s)) as (ws & r & He & Hws & Hr).
    assert (Hl : length ws + length r = S (length s)).
    { apply (f_equal (@length _)) in He. rewrite app_length in He. cbn in He. lia. }
    assert (Hpos : 0 < length ws).
    { destruct ws; cbn; [|lia]. cbn in He. subst r. cbn in Hr. congruence. }
    rewrite one_ws by assumption. rewrite He.
    erewrite tryb_Ok by (apply skip_ws_run; [assumption|assumption|lia]). cbv beta.
    eapply out_skip with (sk := ws); [reflexivity| |].
    - intros m. now apply le_ws_run.
    - apply IHn; lia. }
  destruct (N.eq_dec c c_hash) as [->|Hh].
  { rewrite one_hash. destruct (split_lf s) as [(body & rest & -> & Hb)|Hb].
    - rewrite app_length in Hn. cbn [length] in Hn.
      erewrite bind_Done.
      2:{ apply (skip_comment_lf n (c_hash :: body)); [|cbn [length]; lia]. intros [H|H]; [discriminate|tauto]. }
      cbv beta. eapply out_skip with (sk := (c_hash :: body) ++ [c_lf]); [cbn; now rewrite <- app_assoc| |].
      + intros m. now apply le_hash.
      + apply IHn; lia.
    - erewrite bind_Done.
      2:{ apply (skip_comment_eof n (c_hash :: s)); [|cbn [length]; lia]. intros [H|H]; [discriminate|tauto]. }
      cbv beta. destruct n as [|n]; [lia|]. cbn [tokenize_one]. tk_step.
      right; left. split; [eexists; reflexivity|]. intros m. now apply le_hash_end. }
  destruct (N.eq_dec c c_quote) as [->|Hq].
  { destruct (str_dec s) as [(body & v & rest & -> & Hb)|Hu].
    - replace (c_quote :: body ++ c_quote :: rest) with ((c_quote :: body ++ [c_quote]) ++ rest)
        by (cbn; now rewrite <- app_assoc).
      eapply out_here; [apply lx_str; exact Hb|]. cbn [length]. rewrite app_length in *. cbn [length] in *. lia.
    - destruct (open_of s Hu) as [esc Ho].
      pose proof (one_quote fo cc chk n pre s) as Hq. rewrite (str_loop_open _ _ _ _ _ _ Ho) in Hq by lia.
      eapply out_err; eauto; [cbn [length]; lia|]. destruct esc; cbn [open_msg].
      + destruct (open_escape _ _ Ho eq_refl) as [s' ->].
        replace ((pre ++ [c_quote]) ++ s' ++ [c_bslash]) with ((pre ++ c_quote :: s') ++ [c_bslash]) by now rewrite <- !app_assoc.
        rewrite removelast_snoc. now apply te_escape.
      + rewrite <- app_assoc. now apply te_string. }
  destruct (N.eq_dec c c_lbrack) as [->|Hlb].
  { apply (out_here chk pre [c_lbrack] TLBracket s); [constructor|cbn; lia]. }
  destruct (N.eq_dec c c_rbrack) as [->|Hrb].
  { apply (out_here chk pre [c_rbrack] TRBracket s); [constructor|cbn; lia]. }
  destruct (starts_num cc c) eqn:Hs.
  { pose proof (one_num fo cc Hcc chk n pre c s Hs) as Ho.
    destruct (num_sound fo cc chk Hcc n pre (c :: s) ltac:(cbn [length]; lia))
      as [(text & v & rest & He & Hnum & Heq)|[(m & pre' & s' & Heq & Hp)|(-> & text & rest & He & Hov & Heq)]];
      rewrite Heq in Ho.
    - assert (length text <= S (length s)) by (apply (f_equal (@length _)) in He; rewrite app_length in He; cbn in He; lia).
      rewrite He. eapply out_here; [apply lx_num; exact Hnum|lia].
    - eapply out_err; eauto; [cbn [length]; lia|]. apply te_num; [now apply starts_num_in|].
      destruct (num_error_sound fo cc chk Hcc n pre (c :: s) ltac:(cbn [length]; lia) _ _ Heq) as (m' & [= <-] & H'). exact H'.
    - apply out_panic; auto. cbn [length]; lia. }
  destruct (is_alphabetic cc c) eqn:Ha.
  { destruct (span_pred (is_alphanumeric cc) s) as (t & rest & -> & Ht & Hr).
    apply (out_here chk pre (c :: t) (TIdent (c :: t)) rest).
    - apply lx_ident. exists c, t. repeat split; auto.
      unfold starts_num in Hs. apply orb_false_iff in Hs. tauto.
    - rewrite app_length in Hn. cbn [length]. lia. }
  eapply out_err; try assumption; [cbn [length]; lia| |].
  - cbn [tokenize_one]. tk_step. apply N.eqb_neq in Hh, Hq, Hlb, Hrb.
    rewrite Hh, Hq, Hlb, Hrb, Hs, Hw, Ha. tk_step. reflexivity.
  - apply te_char. apply nothing_iff. auto.
Qed.

(** *** The whole input *)
Lemma loop_errors chk n : forall pre s acc, length s + 2 < n ->
  match tokenize_loop fo cc chk n acc (mk pre s) with
  | Done (Err (EStr m0), _) => forall m, lex_error fo cc chk pre s m <-> m = m0
  | _ => forall m, ~ lex_error fo cc chk pre s m
  end.
Proof.
  induction n as [|n IH]; intros pre s acc Hn; [lia|]. cbn [tokenize_loop].
  unfold bind at 1, get. rewrite is_empty_mk. destruct s as [|c s]; cbn [negb].
  { intros m. apply le_nil. }
  destruct (one_errors chk n pre (c :: s) ltac:(lia))
    as [(sk & text & ty & rest & He & Hne & Hl & Heq)|[((st & Heq) & Hl)|[(m0 & (st & Heq) & Hl)|(Heq & Hl)]]].
  - erewrite bind_Done by exact Heq. cbv beta iota.
    assert (length rest < length (c :: s)).
    { rewrite He, !app_length. destruct text; [congruence|]. cbn [length]. lia. }
    specialize (IH (pre ++ sk ++ text) rest (acc ++ [mkTok (pos_of (pre ++ sk)) ty]) ltac:(lia)).
    destruct (tokenize_loop _ _ _ _ _ _) as [[[toks|[m0|]] st]| |]; intros m; rewrite Hl; apply IH.
  - erewrite bind_Done by exact Heq. exact Hl.
  - erewrite bind_Done by exact Heq. exact Hl.
  - unfold bind. rewrite Heq. exact Hl.
Qed.

Lemma tokenize_error_iff chk input m :
  tokenize fo cc chk input = Done (Err (EStr m)) <-> exists t, lf_text input t /\ lex_error fo cc chk [] t m.
Proof.
  assert (E : match tokenize fo cc chk input with
              | Done (Err (EStr m0)) => forall m, lex_error fo cc chk [] (replace_crlf input) m <-> m = m0
              | _ => forall m, ~ lex_error fo cc chk [] (replace_crlf input) m
              end).
  { pose proof (loop_errors chk (tk_fuel (mk [] (replace_crlf input))) [] (replace_crlf input) []) as H.
    unfold tokenize. rewrite tk_new_mk. destruct (tokenize_loop _ _ _ _ _ _) as [[[toks|[m0|]] st]| |];
      apply H; unfold tk_fuel, mk; cbn [tk_chars app]; lia. }
  split.
  - intros H. rewrite H in E. exists (replace_crlf input). split; [apply replace_crlf_spec|]. now apply E.
  - intros (t & Ht & He). apply lf_text_iff in Ht. subst t.
    destruct (tokenize fo cc chk input) as [[toks|[m0|]]| |]; try (now elim (E m)).
    apply E in He. now subst.
Qed.
End One.
