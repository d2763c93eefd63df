(** Proofs about [tokenize_num]. *)
From Verif Require Import Base TokModel LexSpec TokProofs.
Open Scope mon_scope.

Section Num.
Context {F : Type} (fo : FloatOps F) (cc : CharClass) (chk : bool) (Hcc : cc_ok cc).

Notation loop := (num_loop fo cc chk).
Notation prelude n := (num_prelude (num_loop fo cc chk n)).

Lemma ascii_not_numeric c : (c < 128)%N -> is_ascii_digit c = false -> is_numeric cc c = false.
Proof. intros H1 H2. now rewrite (cc_num_ascii cc Hcc). Qed.
Lemma numeric_not c : is_numeric cc c = true -> c <> c_minus /\ c <> c_plus /\ c <> c_dot /\ c <> c_e.
Proof.
  intros H. repeat split; intros ->; rewrite ascii_not_numeric in H;
    try discriminate; reflexivity.
Qed.

(** Runs of numeric characters. *)
Lemma loop_run a n sp nc b pre suf :
  Forall (fun c => is_numeric cc c = true) a ->
  loop (length a + n) sp nc b (mk pre (a ++ suf)) = loop n sp (nc ++ a) b (mk (pre ++ a) suf).
Proof.
  revert nc pre; induction a as [|c a IH]; intros nc pre Ha.
  - cbn [length Nat.add app]. now rewrite !app_nil_r.
  - inversion Ha as [|? ? Hc Ha']; subst. cbn [length Nat.add app num_loop].
    tk_step. rewrite Hc. tk_step. rewrite IH by assumption. now rewrite <- !app_assoc.
Qed.

Lemma loop_dot n sp nc pre suf :
  loop (S n) sp nc false (mk pre (c_dot :: suf)) = loop n sp (nc ++ [c_dot]) true (mk (pre ++ [c_dot]) suf).
Proof.
  cbn [num_loop]. tk_step. rewrite ascii_not_numeric by reflexivity. rewrite N.eqb_refl. tk_step. reflexivity.
Qed.

Lemma loop_mantissa body dot n sp nc pre suf :
  mantissa cc body dot ->
  loop (length body + n) sp nc false (mk pre (body ++ suf)) = loop n sp (nc ++ body) dot (mk (pre ++ body) suf).
Proof.
  destruct dot; cbn [mantissa].
  - intros (a & b & -> & Hab). apply Forall_app in Hab as [Ha Hb].
    rewrite app_length. cbn [length]. rewrite <- app_assoc. cbn [app].
    replace (length a + S (length b) + n) with (length a + S (length b + n)) by lia.
    rewrite loop_run by assumption. rewrite loop_dot, loop_run by assumption.
    now rewrite <- !app_assoc.
  - intros H. now apply loop_run.
Qed.

(** Every text splits into sign, mantissa and the rest. *)
Lemma split_number s :
  exists sg neg body dot rest,
    s = sg ++ body ++ rest /\ sign sg neg /\ mantissa cc body dot /\
    next_is (fun c => is_numeric cc c = false /\ (c = c_dot -> dot = true)) rest /\
    (sg = [] -> next_is (fun c => c <> c_plus /\ c <> c_minus) s).
Proof.
  assert (Hb : forall s, exists body dot rest, s = body ++ rest /\ mantissa cc body dot /\
             next_is (fun c => is_numeric cc c = false /\ (c = c_dot -> dot = true)) rest).
  { clear s. intros s. destruct (span_pred (is_numeric cc) s) as (a & r & -> & Ha & Hr).
    destruct r as [|c r].
    - exists a, false, []. repeat split; [exact Ha].
    - destruct (N.eq_dec c c_dot) as [->|Hc].
      + destruct (span_pred (is_numeric cc) r) as (b & r' & -> & Hb & Hr').
        exists (a ++ c_dot :: b), true, r'. repeat split.
        * now rewrite <- app_assoc.
        * exists a, b. split; [reflexivity|]. apply Forall_app; now split.
        * destruct r'; [exact I|]. cbn in *. auto.
      + exists a, false, (c :: r). repeat split; [exact Ha|exact Hr|congruence]. }
  destruct s as [|c s].
  - exists [], false, [], false, []. repeat split; constructor.
  - destruct (N.eq_dec c c_plus) as [->|H1].
    + destruct (Hb s) as (body & dot & rest & -> & Hm & Hr).
      exists [c_plus], false, body, dot, rest.
      split; [reflexivity|]. split; [constructor|]. split; [exact Hm|]. split; [exact Hr|discriminate].
    + destruct (N.eq_dec c c_minus) as [->|H2].
      * destruct (Hb s) as (body & dot & rest & -> & Hm & Hr).
        exists [c_minus], true, body, dot, rest.
        split; [reflexivity|]. split; [constructor|]. split; [exact Hm|]. split; [exact Hr|discriminate].
      * destruct (Hb (c :: s)) as (body & dot & rest & He & Hm & Hr).
        exists [], false, body, dot, rest.
        split; [exact He|]. split; [constructor|]. split; [exact Hm|]. split; [exact Hr|].
        intros _. now split.
Qed.

Lemma prelude_sign sg neg n pre s :
  sign sg neg -> (sg = [] -> next_is (fun c => c <> c_plus /\ c <> c_minus) s) ->
  prelude n (mk pre (sg ++ s)) = loop n (pos_of pre) (signed_chars neg []) false (mk (pre ++ sg) s).
Proof.
  intros [| |] Hs; unfold num_prelude; tk_step.
  - rewrite app_nil_r. cbn [app]. specialize (Hs eq_refl). destruct s as [|c s].
    + tk_step. cbn [signed_chars]. reflexivity.
    + cbn in Hs. destruct Hs as [H1 H2]. apply N.eqb_neq in H1, H2. tk_step. rewrite H1, H2. reflexivity.
  - cbn [app]. tk_step. change (c_plus =? c_minus)%N with false. rewrite N.eqb_refl.
    unfold bind at 1. tk_step. reflexivity.
  - cbn [app]. tk_step. rewrite N.eqb_refl.
    unfold bind at 1. tk_step. reflexivity.
Qed.

Lemma body_not_sign body dot rest :
  mantissa cc body dot -> next_is (fun c => c <> c_plus /\ c <> c_minus) rest ->
  next_is (fun c => c <> c_plus /\ c <> c_minus) (body ++ rest).
Proof.
  intros Hm Hr. destruct body as [|c t]; [exact Hr|]. cbn.
  destruct dot; cbn in Hm.
  - destruct Hm as (a & b & He & Hab). destruct a as [|c' a]; cbn in He; injection He as -> ->.
    + split; discriminate.
    + inversion Hab as [|? ? Hc ?]; subst. apply numeric_not in Hc. tauto.
  - inversion Hm as [|? ? Hc ?]; subst. apply numeric_not in Hc. tauto.
Qed.

Lemma body_not_sign' body dot :
  mantissa cc body dot -> next_is (fun c => c <> c_minus /\ c <> c_plus) body.
Proof.
  intros Hm. pose proof (body_not_sign body dot [] Hm I) as H. rewrite app_nil_r in H.
  destruct body; [exact I|]. cbn in *. tauto.
Qed.

(** Sign, mantissa, and the state in front of what follows. *)
Lemma prelude_mantissa sg neg body dot n pre rest :
  sign sg neg -> mantissa cc body dot ->
  (sg = [] -> body = [] -> next_is (fun c => c <> c_plus /\ c <> c_minus) rest) ->
  prelude (length body + n) (mk pre (sg ++ body ++ rest))
  = loop n (pos_of pre) (signed_chars neg body) dot (mk (pre ++ sg ++ body) rest).
Proof.
  intros Hs Hm Hr. rewrite (prelude_sign sg neg); [|assumption|].
  - rewrite (loop_mantissa body dot) by assumption. rewrite <- app_assoc. f_equal.
    now destruct neg.
  - intros ->. destruct body as [|c t].
    + cbn [app]. now apply Hr.
    + pose proof (body_not_sign (c :: t) dot [] Hm I) as H. cbn in H. exact H.
Qed.

Lemma signed_chars_nil neg body : signed_chars neg body = [] <-> neg = false /\ body = [].
Proof. destruct neg; cbn; split; intros H; try discriminate; try tauto. destruct H; discriminate. Qed.

Definition stops (rest : str) : Prop :=
  next_is (fun c => is_numeric cc c = false /\ c <> c_dot /\ c <> c_e) rest.

Lemma loop_stop n sp nc dot pre rest :
  stops rest -> loop (S n) sp nc dot (mk pre rest) = num_finish fo sp nc dot (mk pre rest).
Proof.
  intros H. cbn [num_loop]. destruct rest as [|c rest].
  - tk_step. reflexivity.
  - cbn in H. destruct H as (H1 & H2 & H3). apply N.eqb_neq in H2, H3. tk_step. now rewrite H1, H2, H3.
Qed.

Lemma loop_e n sp nc dot pre rest :
  nc <> [] ->
  loop (S n) sp nc dot (mk pre (c_e :: rest))
  = (tok <-? prelude n ;; num_exponent fo chk sp nc dot (tok_ty tok)) (mk (pre ++ [c_e]) rest).
Proof.
  intros H. cbn [num_loop]. tk_step. rewrite ascii_not_numeric by reflexivity.
  change (c_e =? c_dot)%N with false. rewrite N.eqb_refl.
  destruct nc; [congruence|]. tk_step. reflexivity.
Qed.

(** *** Completeness *)
Lemma arith_fits z : fits z -> arith chk z = Done z.
Proof. intros H. unfold arith. apply in_range_fits in H. now rewrite H. Qed.

Lemma wrap_mod z : (wrap z mod 2 ^ 64 = z mod 2 ^ 64)%Z.
Proof.
  unfold wrap. rewrite <- Zminus_mod_idemp_l, Zmod_mod, Zminus_mod_idemp_l. f_equal. lia.
Qed.
Lemma wrap_cong a b : (a mod 2 ^ 64 = b mod 2 ^ 64)%Z -> wrap a = wrap b.
Proof.
  intros H. unfold wrap. f_equal. rewrite <- Zplus_mod_idemp_l, H, Zplus_mod_idemp_l. reflexivity.
Qed.
Lemma wrap_fits z : fits z -> wrap z = z.
Proof. unfold fits, wrap. intros H. rewrite Z.mod_small; lia. Qed.
Lemma fits_wrap z : fits (wrap z).
Proof. unfold fits, wrap. pose proof (Z.mod_pos_bound (z + 2 ^ 63) (2 ^ 64)). lia. Qed.

Lemma arith_release z : arith false z = Done (wrap z).
Proof.
  unfold arith. destruct (in_range z) eqn:H; [|reflexivity].
  apply in_range_fits in H. now rewrite wrap_fits.
Qed.

(** [m * 10^e] in machine arithmetic. *)
Lemma mul_pow_spec m e sp st :
  (p <- lift (isize_pow10 chk e) ;; v <- lift (isize_mul chk m p) ;;
   ret (Ok (mkTok sp (TInt v)))) st
  = match chk with
    | true => if (in_range (10 ^ e) && in_range (m * 10 ^ e))%bool
              then Done (@Ok (Token F) (error F) (mkTok sp (TInt (m * 10 ^ e))), st) else Panic
    | false => Done (Ok (mkTok sp (TInt (wrap (m * 10 ^ e)))), st)
    end :> out (result (Token F) (error F) * tokenizer).
Proof.
  unfold bind, lift, isize_pow10, isize_mul, ret. destruct chk.
  - unfold arith. destruct (in_range (10 ^ e)); cbn [andb]; [|reflexivity].
    now destruct (in_range (m * 10 ^ e)).
  - rewrite !arith_release. replace (wrap (m * wrap (10 ^ e))) with (wrap (m * 10 ^ e)); [reflexivity|].
    apply wrap_cong. symmetry.
    rewrite Z.mul_mod by lia. rewrite wrap_mod. rewrite <- Z.mul_mod by lia. reflexivity.
Qed.

Lemma int_exp_run m e v sp (st : tokenizer) :
  int_exp chk m e v ->
  (p <- lift (isize_pow10 chk (as_u32 e)) ;; v <- lift (isize_mul chk m p) ;;
   ret (Ok (mkTok sp (TInt v)))) st = Done (@Ok (Token F) (error F) (mkTok sp (TInt v)), st).
Proof.
  intros H. rewrite mul_pow_spec. unfold as_u32. destruct H as [(H1 & H2 & ->)|(-> & ->)]; [|reflexivity].
  destruct chk.
  - apply in_range_fits in H1, H2. now rewrite H1, H2.
  - now rewrite wrap_fits.
Qed.

Lemma exp_nonempty neg body : body <> [] -> signed_chars neg body <> [].
Proof. destruct neg; cbn; congruence. Qed.

Lemma dec_num_nonempty body m k : dec_num body m k -> body <> [].
Proof. intros [a H _|a b H _ _]; [assumption|]. now destruct a. Qed.

Lemma number_complete text v rest :
  number fo cc chk text v rest ->
  forall n pre, length text < n ->
  prelude n (mk pre (text ++ rest)) = Done (Ok (mkTok (pos_of pre) v), mk (pre ++ text) rest).
Proof.
  induction 1 as [sg neg body v rest Hs Hm Hi Hn
                 |sg neg body m k rest Hs Hm Hd Hn
                 |sg neg body m text e v rest Hs Hm Hi H IH He Hv
                 |sg neg body dot m k text e rest Hs Hm Hd H IH He
                 |sg neg body dot m k text f rest Hs Hm Hd H IH];
    intros n pre Hl; rewrite !app_length in Hl; cbn [length] in Hl.
  - rewrite <- app_assoc. replace n with (length body + S (n - length body - 1)) by lia.
    rewrite (prelude_mantissa sg neg body false) by
      (try assumption; intros _ ->; destruct Hi as [Hi _]; congruence).
    rewrite loop_stop by exact Hn. unfold num_finish.
    destruct (signed_chars neg body) eqn:Es; [apply signed_chars_nil in Es; destruct Hi as [Hi _]; tauto|].
    rewrite <- Es. erewrite tryb_Ok by (cbv beta; unfold ret; now rewrite (parse_isize_ok _ _ _ Hi)).
    reflexivity.
  - rewrite <- app_assoc. replace n with (length body + S (n - length body - 1)) by lia.
    pose proof (dec_num_nonempty _ _ _ Hd) as Hne.
    rewrite (prelude_mantissa sg neg body true) by (try assumption; congruence).
    rewrite loop_stop by exact Hn. unfold num_finish.
    destruct (signed_chars neg body) eqn:Es; [apply signed_chars_nil in Es; tauto|].
    rewrite <- Es. erewrite tryb_Ok by (cbv beta; unfold ret; now rewrite (parse_float_ok fo _ _ _ _ Hd)).
    reflexivity.
  - pose proof (proj1 Hi) as Hne. rewrite <- !app_assoc. cbn [app].
    replace n with (length body + S (n - length body - 1)) by lia.
    rewrite (prelude_mantissa sg neg body false) by (try assumption; congruence).
    rewrite loop_e by now apply exp_nonempty.
    erewrite tryb_Ok by (apply IH; lia). cbv beta. unfold num_exponent; cbn [tok_ty].
    apply Z.leb_le in He; rewrite He; cbn [negb andb].
    erewrite tryb_Ok by (cbv beta; unfold ret; now rewrite (parse_isize_ok _ _ _ Hi)). cbv beta.
    rewrite (int_exp_run _ _ v) by assumption. now rewrite <- !app_assoc.
  - pose proof (dec_num_nonempty _ _ _ Hd) as Hne. rewrite <- !app_assoc. cbn [app].
    replace n with (length body + S (n - length body - 1)) by lia.
    rewrite (prelude_mantissa sg neg body dot) by (try assumption; congruence).
    rewrite loop_e by now apply exp_nonempty.
    erewrite tryb_Ok by (apply IH; lia). cbv beta. unfold num_exponent; cbn [tok_ty].
    replace ((0 <=? e)%Z && negb dot)%bool with false
      by (destruct He as [He| ->]; [apply Z.leb_gt in He; now rewrite He|now rewrite andb_false_r]).
    erewrite tryb_Ok by (cbv beta; unfold ret; now rewrite (parse_float_ok fo _ _ _ _ Hd)). cbv beta.
    unfold ret. now rewrite <- !app_assoc.
  - pose proof (dec_num_nonempty _ _ _ Hd) as Hne. rewrite <- !app_assoc. cbn [app].
    replace n with (length body + S (n - length body - 1)) by lia.
    rewrite (prelude_mantissa sg neg body dot) by (try assumption; congruence).
    rewrite loop_e by now apply exp_nonempty.
    erewrite tryb_Ok by (apply IH; lia). cbv beta. unfold num_exponent; cbn [tok_ty].
    erewrite tryb_Ok by (cbv beta; unfold ret; now rewrite (parse_float_ok fo _ _ _ _ Hd)). cbv beta.
    unfold ret. now rewrite <- !app_assoc.
Qed.

End Num.

Section NumPanic.
Context {F : Type} (fo : FloatOps F) (cc : CharClass) (Hcc : cc_ok cc).

Lemma not_fits_range a b : ~ (fits a /\ fits b) -> (in_range a && in_range b)%bool = false.
Proof.
  intros H. destruct (in_range a) eqn:Ha; [|reflexivity]. destruct (in_range b) eqn:Hb; [|reflexivity].
  exfalso. apply H. split; now apply in_range_fits.
Qed.

Lemma overflow_complete text rest :
  number_overflows fo cc text rest ->
  forall n pre, length text < n -> num_prelude (num_loop fo cc true n) (mk pre (text ++ rest)) = Panic.
Proof.
  induction 1 as [sg neg body m text e rest Hs Hm Hi H He Hn|sg neg body dot text rest Hs Hm Hne H IH];
    intros n pre Hl; rewrite !app_length in Hl; cbn [length] in Hl.
  - pose proof (proj1 Hi) as Hne. rewrite <- !app_assoc. cbn [app].
    replace n with (length body + S (n - length body - 1)) by lia.
    rewrite (prelude_mantissa fo cc true Hcc sg neg body false) by (try assumption; congruence).
    rewrite loop_e by (assumption || now apply exp_nonempty).
    erewrite tryb_Ok by (apply number_complete; [assumption|eassumption|lia]).
    cbv beta. unfold num_exponent; cbn [tok_ty].
    apply Z.leb_le in He; rewrite He; cbn [negb andb].
    erewrite tryb_Ok by (cbv beta; unfold ret; now rewrite (parse_isize_ok _ _ _ Hi)). cbv beta.
    rewrite (mul_pow_spec true). unfold as_u32. now rewrite not_fits_range.
  - rewrite <- !app_assoc. cbn [app].
    replace n with (length body + S (n - length body - 1)) by lia.
    rewrite (prelude_mantissa fo cc true Hcc sg neg body dot); [|assumption|assumption|].
    + rewrite loop_e; [|assumption|].
      * unfold tryb, bind. rewrite IH by lia. reflexivity.
      * intros Es. apply signed_chars_nil in Es. destruct Hne as [Hne|Hne]; destruct Es; congruence.
    + intros _ _. cbn. split; discriminate.
Qed.
End NumPanic.

Section NumSound.
Context {F : Type} (fo : FloatOps F) (cc : CharClass) (chk : bool) (Hcc : cc_ok cc).

(** *** Soundness: one of three outcomes. *)
Definition num_outcome (pre s : str) (o : out (result (Token F) (error F) * tokenizer)) : Prop :=
  (exists text v rest, s = text ++ rest /\ number fo cc chk text v rest /\
      o = Done (Ok (mkTok (pos_of pre) v), mk (pre ++ text) rest))
  \/ (exists m pre' s', o = Done (Err (EStr m), mk pre' s') /\ pre' ++ s' = pre ++ s)
  \/ (chk = true /\ exists text rest, s = text ++ rest /\ number_overflows fo cc text rest /\ o = Panic).

Lemma number_ty text v rest : number fo cc chk text v rest -> (exists i, v = TInt i) \/ exists f, v = TFloat f.
Proof. intros []; eauto. Qed.

Lemma err_str (e : error F) : e <> EEof -> exists m, e = EStr m.
Proof. destruct e; [eauto|congruence]. Qed.

Lemma mantissa_no_exp_dec body dot m k : mantissa cc body dot -> dec_num body m k ->
  dot = true -> mantissa cc body true.
Proof. now intros H _ ->. Qed.

Lemma num_sound n : forall pre s, length s < n ->
  num_outcome pre s (num_prelude (num_loop fo cc chk n) (mk pre s)).
Proof.
  induction n as [n IHn] using lt_wf_ind. intros pre s Hn.
  destruct (split_number cc s) as (sg & neg & body & dot & rest & -> & Hs & Hm & Hr & Hsg).
  rewrite !app_length in Hn.
  replace n with (length body + S (n - length body - 1)) by lia.
  rewrite (prelude_mantissa fo cc chk Hcc sg neg body dot); [|assumption|assumption|];
    [|intros -> ->; exact (Hsg eq_refl)].
  pose proof (body_not_sign' cc Hcc body dot Hm) as Hbs.
  set (k := n - length body - 1).
  (* what happens in front of [rest] *)
  assert (Hfin : stops cc rest ->
     num_outcome pre (sg ++ body ++ rest)
       (num_finish fo (pos_of pre) (signed_chars neg body) dot (mk (pre ++ sg ++ body) rest))).
  { intros Hst. unfold num_finish.
    destruct (signed_chars neg body) eqn:Es.
    - right; left. do 3 eexists. split; [reflexivity|]. now rewrite <- !app_assoc.
    - rewrite <- Es. destruct dot.
      + destruct (parse_float_str fo (signed_chars neg body)) as [f|e] eqn:Ef.
        * left. destruct (parse_float_inv fo neg body f Hbs Ef) as (m & kk & Hd & ->).
          exists (sg ++ body), (TFloat (f_dec fo neg m kk)), rest. split; [now rewrite <- app_assoc|].
          split; [now apply nu_dec|]. reflexivity.
        * right; left. destruct (err_str e) as [m ->]; [eapply parse_float_err; eauto|].
          exists m, (pre ++ sg ++ body), rest. split; [reflexivity|now rewrite <- !app_assoc].
      + destruct (@parse_isize F (signed_chars neg body)) as [i|e] eqn:Ef.
        * left. pose proof (parse_isize_inv neg body i Hbs Ef) as Hi.
          exists (sg ++ body), (TInt i), rest. split; [now rewrite <- app_assoc|].
          split; [now apply nu_int with (neg := neg)|]. reflexivity.
        * right; left. destruct (err_str e) as [m ->]; [eapply parse_isize_err; eauto|].
          exists m, (pre ++ sg ++ body), rest. split; [reflexivity|now rewrite <- !app_assoc]. }
  destruct rest as [|c rest].
  { rewrite loop_stop by exact I. apply Hfin. exact I. }
  cbn in Hr. destruct Hr as [Hr1 Hr2].
  destruct (N.eq_dec c c_dot) as [->|Hcd].
  { rewrite (Hr2 eq_refl). right; left. cbn [num_loop]. tk_step. rewrite Hr1, N.eqb_refl. tk_step.
    do 3 eexists. split; [reflexivity|]. now rewrite <- !app_assoc. }
  destruct (N.eq_dec c c_e) as [->|Hce].
  2:{ rewrite loop_stop by (cbn; auto). apply Hfin. cbn; auto. }
  clear Hfin.
  destruct (signed_chars neg body) eqn:Es.
  { right; left. cbn [num_loop]. tk_step. rewrite Hr1. change (c_e =? c_dot)%N with false.
    rewrite N.eqb_refl. tk_step. do 3 eexists. split; [reflexivity|]. now rewrite <- !app_assoc. }
  rewrite <- Es. assert (Hne : neg = true \/ body <> []).
  { destruct neg; [now left|right]. cbn in Es. congruence. }
  rewrite loop_e by (assumption || congruence).
  assert (Hk : length rest < k) by (subst k; cbn [length] in Hn; lia).
  destruct (IHn k ltac:(subst k; lia) ((pre ++ sg ++ body) ++ [c_e]) rest Hk)
    as [(text & v & rest' & -> & Hnum & Heq)|[(m & pre' & s' & Heq & Hp)|(Hchk & text & rest' & -> & Hov & Heq)]].
  - erewrite tryb_Ok by exact Heq. cbv beta. unfold num_exponent; cbn [tok_ty].
    destruct (number_ty _ _ _ Hnum) as [[i ->]|[f ->]].
    + destruct ((0 <=? i)%Z && negb dot)%bool eqn:Hi.
      * apply andb_true_iff in Hi as [Hi Hd]. apply Z.leb_le in Hi. destruct dot; [discriminate|].
        destruct (@parse_isize F (signed_chars neg body)) as [m|e] eqn:Ef.
        2:{ right; left. destruct (err_str e) as [m ->]; [eapply parse_isize_err; eauto|].
            do 3 eexists. split; [reflexivity|]. now rewrite <- !app_assoc. }
        pose proof (parse_isize_inv neg body m Hbs Ef) as Hm'.
        erewrite tryb_Ok by reflexivity. cbv beta. rewrite mul_pow_spec.
        unfold as_u32. set (p := (10 ^ (i mod 2 ^ 32))%Z).
        destruct chk eqn:Echk.
        -- destruct (in_range p && in_range (m * p))%bool eqn:Hp.
           ++ left. apply andb_true_iff in Hp as [Hp1 Hp2]. apply in_range_fits in Hp1, Hp2.
              exists (sg ++ body ++ c_e :: text), (TInt (m * p)), rest'. split; [now rewrite <- !app_assoc|].
              split; [rewrite Echk; apply nu_int_exp with (neg := neg) (m := m) (e := i); auto; left; auto|].
              now rewrite <- !app_assoc.
           ++ right; right. split; [exact Echk|].
              exists (sg ++ body ++ c_e :: text), rest'. split; [now rewrite <- !app_assoc|].
              split; [|reflexivity]. apply no_here with (neg := neg) (m := m) (e := i); auto.
              intros [H1 H2]. apply in_range_fits in H1, H2. fold p in H1, H2. rewrite H1, H2 in Hp. discriminate.
        -- left. exists (sg ++ body ++ c_e :: text), (TInt (wrap (m * p))), rest'. split; [now rewrite <- !app_assoc|].
           split; [rewrite Echk; apply nu_int_exp with (neg := neg) (m := m) (e := i); auto; right; auto|].
           now rewrite <- !app_assoc.
      * destruct (parse_float_str fo (signed_chars neg body)) as [f|e] eqn:Ef.
        2:{ right; left. destruct (err_str e) as [m ->]; [eapply parse_float_err; eauto|].
            do 3 eexists. split; [reflexivity|]. now rewrite <- !app_assoc. }
        destruct (parse_float_inv fo neg body f Hbs Ef) as (m & kk & Hd & ->).
        left. do 3 eexists. split; [|split; [eapply nu_dec_exp; eauto|]].
        -- now rewrite <- !app_assoc.
        -- destruct dot; [now right|left]. rewrite andb_true_r in Hi. apply Z.leb_gt in Hi. lia.
        -- unfold tryb, bind, ret. now rewrite <- !app_assoc.
    + destruct (parse_float_str fo (signed_chars neg body)) as [f'|e] eqn:Ef.
      2:{ right; left. destruct (err_str e) as [m ->]; [eapply parse_float_err; eauto|].
          do 3 eexists. split; [reflexivity|]. now rewrite <- !app_assoc. }
      destruct (parse_float_inv fo neg body f' Hbs Ef) as (m & kk & Hd & ->).
      left. do 3 eexists. split; [|split; [eapply nu_float_exp; eauto|]].
      * now rewrite <- !app_assoc.
      * unfold tryb, bind, ret. now rewrite <- !app_assoc.
  - right; left. exists m, pre', s'. erewrite tryb_Err by exact Heq. split; [reflexivity|].
    rewrite Hp. now rewrite <- !app_assoc.
  - right; right. split; [assumption|]. exists (sg ++ body ++ c_e :: text), rest'.
    split; [now rewrite <- !app_assoc|]. split.
    + now apply no_exponent with (neg := neg) (dot := dot).
    + unfold tryb, bind. now rewrite Heq.
Qed.

End NumSound.
