(** The exact number of nested calls. *)
From Verif Require Import Base TokModel ParModel LexSpec SceneSpec TokProofs NumProofs LexProofs ParProofs DirProofs DepthModel
  DepthProofs LexThms TextThms SceneThms SceneProps PropsLexLemmas StackSpec.
Open Scope mon_scope.

(** ** More depth does not change a run that ends *)
Definition lem {S A} (m m' : M S A) : Prop := forall s, m s = OutOfFuel \/ m s = m' s.
Lemma lem_refl {S A} (m : M S A) : lem m m.
Proof. intros s. now right. Qed.
Lemma lem_bind {S A C} (m m' : M S A) (k k' : A -> M S C) : lem m m' -> (forall a, lem (k a) (k' a)) -> lem (bind m k) (bind m' k').
Proof.
  intros Hm Hk s. unfold bind. destruct (Hm s) as [->| ->]; [now left|].
  destruct (m' s) as [[a s']| |]; [apply Hk|now right|now right].
Qed.
Lemma lem_tryb {S A C E} (m m' : M S (result A E)) (k k' : A -> M S (result C E)) :
  lem m m' -> (forall a, lem (k a) (k' a)) -> lem (tryb m k) (tryb m' k').
Proof. intros Hm Hk. apply lem_bind; [assumption|]. intros [a|e]; [apply Hk|apply lem_refl]. Qed.
Lemma lem_deeper {St A} d d' (call call' : nat -> M St A) : d <= d' ->
  (forall k k', k <= k' -> lem (call k) (call' k')) -> lem (deeper d call) (deeper d' call').
Proof.
  intros Hd H. destruct d as [|d]; [intros s; now left|]. destruct d' as [|d']; [lia|]. cbn [deeper]. apply H. lia.
Qed.

Section Mono.
Context {F : Type} (fo : FloatOps F) (cc : CharClass) (chk : bool).
Lemma prelude_lem l l' : (forall a b c, lem (l a b c) (l' a b c)) -> lem (@num_prelude F l) (num_prelude l').
Proof. intros H. unfold num_prelude. repeat (apply lem_bind; [apply lem_refl|]; intros ?). apply H. Qed.
Lemma num_loop_lem fuel : forall d d' sp nc fl, d <= d' -> lem (num_loop_d fo cc chk d fuel sp nc fl) (num_loop_d fo cc chk d' fuel sp nc fl).
Proof.
  induction fuel as [|n IH]; intros d d' sp nc fl Hd; [intros ?; now left|]. cbn [num_loop_d].
  apply lem_bind; [apply lem_refl|]. intros [ch|[m|]]; try apply lem_refl.
  destruct (is_numeric cc ch). { apply lem_tryb; [apply lem_refl|]. intros c. now apply IH. }
  destruct (ch =? c_dot)%N. { destruct fl; [apply lem_refl|]. apply lem_tryb; [apply lem_refl|]. intros c. now apply IH. }
  destruct (ch =? c_e)%N; [|apply lem_refl]. destruct nc; [apply lem_refl|].
  apply lem_bind; [apply lem_refl|]. intros _. apply lem_tryb; [|intros t; apply lem_refl].
  apply lem_deeper; [assumption|]. intros k k' Hk. apply prelude_lem. intros. now apply IH.
Qed.
Lemma one_lem fuel : forall d d', d <= d' -> lem (tokenize_one_d fo cc chk d fuel) (tokenize_one_d fo cc chk d' fuel).
Proof.
  induction fuel as [|n IH]; intros d d' Hd; [intros ?; now left|]. cbn [tokenize_one_d].
  apply lem_bind; [apply lem_refl|]. intros [c|e]; [|apply lem_refl].
  destruct (c =? c_hash)%N. { apply lem_bind; [apply lem_refl|]. intros _. apply lem_deeper; [assumption|]. auto. }
  destruct (c =? c_quote)%N; [apply lem_refl|]. destruct (c =? c_lbrack)%N; [apply lem_refl|].
  destruct (c =? c_rbrack)%N; [apply lem_refl|].
  destruct (starts_num cc c). { apply prelude_lem. intros. now apply num_loop_lem. }
  destruct (is_whitespace c). { apply lem_tryb; [apply lem_refl|]. intros _. apply lem_deeper; [assumption|]. auto. }
  destruct (is_alphabetic cc c); apply lem_refl.
Qed.
Lemma tok_loop_lem fuel : forall d d' acc, d <= d' -> lem (tokenize_loop_d fo cc chk d fuel acc) (tokenize_loop_d fo cc chk d' fuel acc).
Proof.
  induction fuel as [|n IH]; intros d d' acc Hd; [intros ?; now left|]. cbn [tokenize_loop_d].
  apply lem_bind; [apply lem_refl|]. intros t. destruct (negb (tk_is_empty t)); [|apply lem_refl].
  apply lem_bind; [now apply one_lem|]. intros [tok|[m|]]; try apply lem_refl. now apply IH.
Qed.
Lemma tokenize_lem d d' input : d <= d' -> tokenize_d fo cc chk d input = OutOfFuel \/ tokenize_d fo cc chk d input = tokenize_d fo cc chk d' input.
Proof.
  intros Hd. unfold tokenize_d. destruct (tok_loop_lem (tk_fuel (tk_new input)) d d' [] Hd (tk_new input)) as [->| ->]; [now left|now right].
Qed.
Lemma body_lem b b' : lem b b' -> lem (parse_directive_body fo b) (parse_directive_body fo b').
Proof.
  intros H. unfold parse_directive_body. apply lem_tryb; [apply lem_refl|]. intros p. apply lem_tryb; [apply lem_refl|]. intros id.
  destruct (str_eqb id (s2l "Material")); [apply lem_refl|].
  destruct (str_eqb id (s2l "Shape")); [apply lem_refl|].
  destruct (str_eqb id (s2l "LightSource")); [apply lem_refl|].
  destruct (str_eqb id (s2l "AreaLightSource")); [apply lem_refl|].
  destruct (str_eqb id (s2l "AttributeBegin")); [apply lem_tryb; [assumption|intros; apply lem_refl]|].
  destruct (str_eqb id (s2l "TransformBegin")); [apply lem_tryb; [assumption|intros; apply lem_refl]|].
  destruct (str_eqb id (s2l "WorldBegin")); [apply lem_tryb; [assumption|intros; apply lem_refl]|].
  apply lem_refl.
Qed.
Lemma dir_loop_lem fuel : forall d d' acc, d <= d' -> lem (parse_directives_loop_d fo d fuel acc) (parse_directives_loop_d fo d' fuel acc).
Proof.
  induction fuel as [|n IH]; intros d d' acc Hd; [intros ?; now left|]. cbn [parse_directives_loop_d].
  apply lem_tryb; [apply lem_refl|]. intros t. destruct (tok_ty t); try apply lem_refl.
  destruct (is_closer s); [apply lem_refl|]. apply lem_tryb.
  - apply body_lem. apply lem_deeper; [assumption|]. auto.
  - intros x. now apply IH.
Qed.
Lemma parse_tokens_lem d d' toks : d <= d' -> parse_tokens_d fo d toks = OutOfFuel \/ parse_tokens_d fo d toks = parse_tokens_d fo d' toks.
Proof.
  intros Hd. unfold parse_tokens_d.
  assert (L : lem (pres <-? parse_predirectives fo ;; x <-? parse_directive_d fo d ;; ret (Ok (pres, x)))
                  (pres <-? parse_predirectives fo ;; x <-? parse_directive_d fo d' ;; ret (@Ok _ (error F) (pres, x)))).
  { apply lem_tryb; [apply lem_refl|]. intros pres. apply lem_tryb; [|intros; apply lem_refl].
    unfold parse_directive_d. apply body_lem. apply lem_deeper; [assumption|]. intros k k' Hk.
    apply lem_bind; [apply lem_refl|]. intros st. now apply dir_loop_lem. }
  destruct (L (mkPr toks 0)) as [->| ->]; [now left|now right].
Qed.
Lemma parse_lem d d' input : d <= d' -> parse_d fo cc chk d input = OutOfFuel \/ parse_d fo cc chk d input = parse_d fo cc chk d' input.
Proof.
  intros Hd. unfold parse_d. destruct (tokenize_lem d d' input Hd) as [->| ->]; [now left|].
  destruct (tokenize_d fo cc chk d' input) as [[toks|e]| |]; try (now right). now apply parse_tokens_lem.
Qed.
End Mono.

(** The smallest depth that is enough. *)
Lemma parse_threshold {F} (fo : FloatOps F) cc (Hcc : cc_ok cc) chk input : exists k, k <= length input + 4 /\
  forall depth, parse_d fo cc chk depth input = if k <=? depth then parse fo cc chk input else OutOfFuel.
Proof.
  assert (Hno : forall d, parse_d fo cc chk d input = OutOfFuel \/ parse_d fo cc chk d input = parse fo cc chk input).
  { intros d. destruct (parse_rel fo cc Hcc chk d input) as [H|[_ H]]; auto. }
  assert (Hdec : forall d, parse_d fo cc chk d input = OutOfFuel \/ parse_d fo cc chk d input <> OutOfFuel).
  { intros d. destruct (parse_d fo cc chk d input); (now left) || (right; discriminate). }
  assert (X : forall n, (exists k, k <= n /\ parse_d fo cc chk k input <> OutOfFuel /\ forall d, d < k -> parse_d fo cc chk d input = OutOfFuel) \/
                        forall d, d <= n -> parse_d fo cc chk d input = OutOfFuel).
  { induction n as [|n IH].
    - destruct (Hdec 0) as [H|H]; [right; intros d Hd; now replace d with 0 by lia|left; exists 0; repeat split; [lia|assumption|lia]].
    - destruct IH as [(k & Hk & H1 & H2)|H]; [left; exists k; repeat split; [lia|assumption|assumption]|].
      destruct (Hdec (S n)) as [H'|H'].
      + right. intros d Hd. destruct (Nat.eq_dec d (S n)) as [->|]; [assumption|apply H; lia].
      + left. exists (S n). repeat split; [lia|assumption|]. intros d Hd. apply H. lia. }
  destruct (X (length input + 4)) as [(k & Hk & H1 & H2)|H].
  - exists k. split; [assumption|]. intros d. destruct (Nat.leb_spec k d) as [Hd|Hd].
    + destruct (parse_lem fo cc chk k d input Hd) as [E|E]; [tauto|]. rewrite <- E. destruct (Hno k); tauto.
    + auto.
  - exists (length input + 4). split; [lia|]. intros d. destruct (Nat.leb_spec (length input + 4) d) as [Hd|Hd].
    + destruct (parse_rel fo cc Hcc chk d input) as [E|[E _]]; [exact E|lia].
    + apply H. lia.
Qed.

(** ** The tokenizer *)
Section Tok.
Context {F : Type} (fo : FloatOps F) (cc : CharClass) (chk : bool) (Hcc : cc_ok cc).

Notation loopd := (num_loop_d fo cc chk).
Notation preluded d n := (num_prelude (num_loop_d fo cc chk d n)).

Lemma dloop_run d a n sp nc b pre suf : Forall (fun c => is_numeric cc c = true) a ->
  loopd d (length a + n) sp nc b (mk pre (a ++ suf)) = loopd d n sp (nc ++ a) b (mk (pre ++ a) suf).
Proof.
  revert nc pre; induction a as [|c a IH]; intros nc pre Ha.
  - cbn [length Nat.add app]. now rewrite !app_nil_r.
  - inversion Ha as [|? ? Hc Ha']; subst. cbn [length Nat.add app num_loop_d].
    tk_step. rewrite Hc. tk_step. rewrite IH by assumption. now rewrite <- !app_assoc.
Qed.
Lemma dloop_dot d n sp nc pre suf :
  loopd d (S n) sp nc false (mk pre (c_dot :: suf)) = loopd d n sp (nc ++ [c_dot]) true (mk (pre ++ [c_dot]) suf).
Proof. cbn [num_loop_d]. tk_step. rewrite (ascii_not_numeric cc Hcc) by reflexivity. rewrite N.eqb_refl. tk_step. reflexivity. Qed.
Lemma dloop_mantissa d body dot n sp nc pre suf : mantissa cc body dot ->
  loopd d (length body + n) sp nc false (mk pre (body ++ suf)) = loopd d n sp (nc ++ body) dot (mk (pre ++ body) suf).
Proof.
  destruct dot; cbn [mantissa].
  - intros (a & b & -> & Hab). apply Forall_app in Hab as [Ha Hb].
    rewrite app_length. cbn [length]. rewrite <- app_assoc. cbn [app].
    replace (length a + S (length b) + n) with (length a + S (length b + n)) by lia.
    rewrite dloop_run by assumption. rewrite dloop_dot, dloop_run by assumption.
    now rewrite <- !app_assoc.
  - intros H. now apply dloop_run.
Qed.
Lemma dprelude_sign (l : Pos -> str -> bool -> M tokenizer (result (Token F) (error F))) sg neg pre s :
  sign sg neg -> (sg = [] -> next_is (fun c => c <> c_plus /\ c <> c_minus) s) ->
  num_prelude l (mk pre (sg ++ s)) = l (pos_of pre) (signed_chars neg []) false (mk (pre ++ sg) s).
Proof.
  intros [| |] Hs; unfold num_prelude; tk_step.
  - rewrite app_nil_r. cbn [app]. specialize (Hs eq_refl). destruct s as [|c s].
    + tk_step. cbn [signed_chars]. reflexivity.
    + cbn in Hs. destruct Hs as [H1 H2]. apply N.eqb_neq in H1, H2. tk_step. rewrite H1, H2. reflexivity.
  - cbn [app]. tk_step. change (c_plus =? c_minus)%N with false. rewrite N.eqb_refl.
    unfold bind at 1. tk_step. reflexivity.
  - cbn [app]. tk_step. rewrite N.eqb_refl.
    unfold bind at 1. tk_step. reflexivity.
Qed.
Lemma dprelude_mantissa d sg neg body dot n pre rest :
  sign sg neg -> mantissa cc body dot -> body <> [] ->
  preluded d (length body + n) (mk pre (sg ++ body ++ rest))
  = loopd d n (pos_of pre) (signed_chars neg body) dot (mk (pre ++ sg ++ body) rest).
Proof.
  intros Hs Hm Hr. rewrite (dprelude_sign _ sg neg); [|assumption|].
  - rewrite (dloop_mantissa d body dot) by assumption. rewrite <- app_assoc. f_equal. now destruct neg.
  - intros ->. destruct body as [|c t]; [congruence|].
    pose proof (body_not_sign cc Hcc (c :: t) dot [] Hm I) as H. cbn in H. exact H.
Qed.
Lemma dloop_stop d n sp nc dot pre rest :
  stops cc rest -> loopd d (S n) sp nc dot (mk pre rest) = num_finish fo sp nc dot (mk pre rest).
Proof.
  intros H. cbn [num_loop_d]. destruct rest as [|c rest].
  - tk_step. reflexivity.
  - cbn in H. destruct H as (H1 & H2 & H3). apply N.eqb_neq in H2, H3. tk_step. now rewrite H1, H2, H3.
Qed.
Lemma dloop_e d n sp nc dot pre rest : nc <> [] ->
  loopd d (S n) sp nc dot (mk pre (c_e :: rest))
  = (tok <-? deeper d (fun k => preluded k n) ;; num_exponent fo chk sp nc dot (tok_ty tok)) (mk (pre ++ [c_e]) rest).
Proof.
  intros H. cbn [num_loop_d]. tk_step. rewrite (ascii_not_numeric cc Hcc) by reflexivity.
  change (c_e =? c_dot)%N with false. rewrite N.eqb_refl.
  destruct nc; [congruence|]. tk_step. reflexivity.
Qed.

Lemma no_e l : Forall (fun c => is_numeric cc c = true) l -> count_occ N.eq_dec l c_e = 0.
Proof.
  intros H. apply count_occ_not_In. intros Hi. rewrite Forall_forall in H. apply H in Hi. apply (numeric_not cc Hcc) in Hi. tauto.
Qed.
Lemma mantissa_no_e body dot : mantissa cc body dot -> count_occ N.eq_dec body c_e = 0.
Proof.
  destruct dot; cbn [mantissa]; [|apply no_e]. intros (a & b & -> & H). apply no_e in H. rewrite !count_occ_app in *. cbn. lia.
Qed.
Lemma sign_no_e sg neg : sign sg neg -> count_occ N.eq_dec sg c_e = 0.
Proof. now intros [| |]. Qed.

(** A number takes as many nested calls as it has exponents. *)
Lemma dnumber text v rest : number fo cc chk text v rest -> forall d n pre, length text < n ->
  preluded d n (mk pre (text ++ rest))
  = if count_occ N.eq_dec text c_e <=? d then num_prelude (num_loop fo cc chk n) (mk pre (text ++ rest)) else OutOfFuel.
Proof.
  induction 1 as [sg neg body v rest Hs Hm Hi Hn
                 |sg neg body m k rest Hs Hm Hd Hn
                 |sg neg body m text e v rest Hs Hm Hi H IH He Hv
                 |sg neg body dot m k text e rest Hs Hm Hd H IH He
                 |sg neg body dot m k text f rest Hs Hm Hd H IH];
    intros d n pre Hl; rewrite !app_length in Hl; cbn [length] in Hl.
  1,2: rewrite count_occ_app, (sign_no_e _ _ Hs), (mantissa_no_e _ _ Hm); cbn [Nat.add Nat.leb]; rewrite <- app_assoc;
    assert (Hne : body <> []) by (first [exact (proj1 Hi)|eapply dec_num_nonempty; eauto]);
    replace n with (length body + S (n - length body - 1)) by lia;
    rewrite (dprelude_mantissa d sg neg _ _ _ _ _ Hs Hm Hne), dloop_stop by exact Hn;
    rewrite (prelude_mantissa fo cc chk Hcc sg neg _ _ _ _ _ Hs Hm) by congruence; now rewrite loop_stop by exact Hn.
  all: rewrite !count_occ_app, (sign_no_e _ _ Hs), (mantissa_no_e _ _ Hm); cbn [Nat.add];
    rewrite count_occ_cons_eq by reflexivity; rewrite <- !app_assoc; cbn [app];
    assert (Hne : body <> []) by (first [exact (proj1 Hi)|eapply dec_num_nonempty; eauto]);
    replace n with (length body + S (n - length body - 1)) by lia;
    rewrite (dprelude_mantissa d sg neg _ _ _ _ _ Hs Hm Hne), dloop_e by (now apply exp_nonempty);
    rewrite (prelude_mantissa fo cc chk Hcc sg neg _ _ _ _ _ Hs Hm) by congruence; rewrite loop_e by (first [assumption|now apply exp_nonempty]);
    (destruct d as [|d]; [reflexivity|]); cbn [deeper Nat.leb]; unfold tryb, bind; rewrite IH by lia;
    (destruct (count_occ N.eq_dec text c_e <=? d); reflexivity).
Qed.

(** *** Dispatch on the first character *)
Notation oned := (tokenize_one_d fo cc chk).
Lemma done_num d n pre c s : starts_num cc c = true -> oned d (S n) (mk pre (c :: s)) = preluded d n (mk pre (c :: s)).
Proof.
  intros H. pose proof (not_special c (starts_num_not_special cc Hcc c H)) as (H1 & H2 & H3 & H4).
  cbn [tokenize_one_d]. tk_step. now rewrite H1, H2, H3, H4, H.
Qed.
Lemma done_ws d n pre c s : is_whitespace c = true ->
  oned d (S n) (mk pre (c :: s)) = (_ <-? skip_ws n ;; deeper d (fun k => oned k n)) (mk pre (c :: s)).
Proof.
  intros H. pose proof (not_special c (ws_not_special c H)) as (H1 & H2 & H3 & H4).
  cbn [tokenize_one_d]. tk_step. rewrite H1, H2, H3, H4.
  destruct (starts_num cc c) eqn:Hn; [apply (starts_num_not_ws cc Hcc) in Hn; congruence|]. now rewrite H.
Qed.
Lemma done_hash d n pre s :
  oned d (S n) (mk pre (c_hash :: s)) = (_ <- skip_comment (F := F) n ;; deeper d (fun k => oned k n)) (mk pre (c_hash :: s)).
Proof. cbn [tokenize_one_d]. tk_step. rewrite N.eqb_refl. reflexivity. Qed.

(** A token takes as many nested calls as it has exponents. *)
Lemma dlexeme text ty rest : lexeme fo cc chk text ty rest -> forall d n pre, length text < n ->
  oned d (S n) (mk pre (text ++ rest))
  = if exponents text ty <=? d then Done (Ok (mkTok (pos_of pre) ty), mk (pre ++ text) rest) else OutOfFuel.
Proof.
  intros Hx d n pre Hn. rewrite <- (lexeme_complete fo cc Hcc chk text ty rest Hx n pre Hn).
  assert (Y : forall e, e = 0 -> oned d (S n) (mk pre (text ++ rest)) = tokenize_one fo cc chk (S n) (mk pre (text ++ rest)) ->
    oned d (S n) (mk pre (text ++ rest)) = if e <=? d then tokenize_one fo cc chk (S n) (mk pre (text ++ rest)) else OutOfFuel)
    by (intros e -> E; exact E).
  destruct Hx as [rest|rest|src v rest Hb|text rest Hi|text v rest Hu].
  1,2,3: apply Y; [reflexivity|]; cbn [app tokenize_one_d tokenize_one]; tk_step; symmetry; tk_step; reflexivity.
  - apply Y; [reflexivity|]. destruct Hi as (c & t & -> & Ha & Hnum & Ht & Hr). cbn [app tokenize_one_d tokenize_one].
    tk_step. symmetry. tk_step. destruct (not_special c (alpha_not_special cc Hcc c Ha)) as (-> & -> & -> & ->).
    destruct (starts_num cc c) eqn:Hs; [apply (starts_num_alpha cc Hcc) in Hs; congruence|].
    now rewrite (alpha_not_ws cc Hcc c Ha).
  - destruct (number_start fo cc _ _ _ _ Hu) as (c & u & Ht & Hc).
    pose proof (dnumber _ _ _ Hu d n pre Hn) as Hd.
    assert (He : exponents text v = count_occ N.eq_dec text c_e) by (destruct Hu; reflexivity). rewrite He.
    rewrite Ht in *. cbn [app] in *. rewrite done_num, (one_num fo cc Hcc) by assumption. exact Hd.
Qed.

(** The loop from inside [tokenize_one]: [d] of the [depth] calls are left. *)
Definition from_d (depth d n1 n2 : nat) (acc : list (Token F)) : M tokenizer (result (list (Token F)) (error F)) :=
  r <- oned d n1 ;;
  match r with
  | Ok tok => tokenize_loop_d fo cc chk depth n2 (acc ++ [tok])
  | Err EEof => ret (Ok acc)
  | Err err => ret (Err err)
  end.
Definition from (n1 n2 : nat) (acc : list (Token F)) : M tokenizer (result (list (Token F)) (error F)) :=
  r <- tokenize_one fo cc chk n1 ;;
  match r with
  | Ok tok => tokenize_loop fo cc chk n2 (acc ++ [tok])
  | Err EEof => ret (Ok acc)
  | Err err => ret (Err err)
  end.
Lemma needs_ge n s k : lex_needs fo cc chk n s k -> n <= k.
Proof. induction 1; lia. Qed.
Lemma needs_nil k : lex_needs fo cc chk 0 [] k -> k = 0.
Proof.
  intros H. inversion H as [|n w s k' Hw _ _ _ E| | |n text ty s k' Hx _ E]; subst; [reflexivity| | ].
  - destruct w; [congruence|discriminate].
  - pose proof (lexeme_nonempty fo cc _ _ _ _ Hx). destruct text; [congruence|discriminate].
Qed.
Lemma oned_nil d n pre : oned d (S n) (mk pre []) = Done (Err EEof, mk pre []).
Proof. cbn [tokenize_one_d]. tk_step. reflexivity. Qed.
Lemma one_nil n pre : tokenize_one fo cc chk (S n) (mk pre []) = Done (Err EEof, mk pre []).
Proof. cbn [tokenize_one]. tk_step. reflexivity. Qed.
Lemma from_d_same depth d d' n1 n1' n2 acc st st' : oned d n1 st = oned d' n1' st' -> from_d depth d n1 n2 acc st = from_d depth d' n1' n2 acc st'.
Proof. intros E. unfold from_d, bind. now rewrite E. Qed.
Lemma from_same n1 n1' n2 acc st st' : tokenize_one fo cc chk n1 st = tokenize_one fo cc chk n1' st' -> from n1 n2 acc st = from n1' n2 acc st'.
Proof. intros E. unfold from, bind. now rewrite E. Qed.
Lemma from_d_over depth d n1 n2 acc st : oned d n1 st = OutOfFuel -> from_d depth d n1 n2 acc st = OutOfFuel.
Proof. intros E. unfold from_d, bind. now rewrite E. Qed.
Lemma from_d_eof depth d n1 n2 acc st st' : oned d n1 st = Done (Err EEof, st') -> from_d depth d n1 n2 acc st = Done (Ok acc, st').
Proof. intros E. unfold from_d, bind. now rewrite E. Qed.
Lemma from_eof n1 n2 acc st st' : tokenize_one fo cc chk n1 st = Done (Err EEof, st') -> from n1 n2 acc st = Done (Ok acc, st').
Proof. intros E. unfold from, bind. now rewrite E. Qed.
Lemma from_d_ok depth d n1 n2 acc st t st' : oned d n1 st = Done (Ok t, st') ->
  from_d depth d n1 n2 acc st = tokenize_loop_d fo cc chk depth n2 (acc ++ [t]) st'.
Proof. intros E. unfold from_d, bind. now rewrite E. Qed.
Lemma from_ok n1 n2 acc st t st' : tokenize_one fo cc chk n1 st = Done (Ok t, st') -> from n1 n2 acc st = tokenize_loop fo cc chk n2 (acc ++ [t]) st'.
Proof. intros E. unfold from, bind. now rewrite E. Qed.
Lemma loop_from_d depth n acc pre s : tokenize_loop_d fo cc chk depth (S n) acc (mk pre s)
  = match s with [] => Done (Ok acc, mk pre []) | _ => from_d depth depth n n acc (mk pre s) end.
Proof. cbn [tokenize_loop_d]. unfold bind at 1, get. rewrite is_empty_mk. now destruct s. Qed.
Lemma loop_from n acc pre s : tokenize_loop fo cc chk (S n) acc (mk pre s)
  = match s with [] => Done (Ok acc, mk pre []) | _ => from n n acc (mk pre s) end.
Proof. cbn [tokenize_loop]. unfold bind at 1, get. rewrite is_empty_mk. now destruct s. Qed.

Lemma needs_exact n s k : lex_needs fo cc chk n s k -> forall depth d n1 n2 acc pre, d + n = depth ->
  length s + 1 < n1 -> length s + 2 < n2 ->
  from_d depth d n1 n2 acc (mk pre s) = if k <=? depth then from n1 n2 acc (mk pre s) else OutOfFuel.
Proof.
  induction 1 as [n|n w s k Hw Hf Hn H IH|n body s k Hb H IH|n body Hb|n text ty s k Hx H IH]; intros depth d n1 n2 acc pre Hd H1 H2;
    (destruct n1 as [|n1]; [lia|]).
  - replace (n <=? depth) with true by (symmetry; apply Nat.leb_le; lia).
    now rewrite (from_d_eof _ _ _ _ _ _ _ (oned_nil d n1 pre)), (from_eof _ _ _ _ _ (one_nil n1 pre)).
  - rewrite app_length in *. destruct w as [|c w]; [congruence|]. inversion Hf as [|? ? Hc Hf']; subst.
    assert (E : @skip_ws F n1 (mk pre (c :: w ++ s)) = Done (Ok tt, mk (pre ++ c :: w) s)).
    { apply (skip_ws_run n1 (c :: w)); [assumption|assumption|cbn [length] in *; lia]. }
    assert (E2 : from (S n1) n2 acc (mk pre ((c :: w) ++ s)) = from n1 n2 acc (mk (pre ++ c :: w) s)).
    { apply from_same. cbn [app]. rewrite (one_ws fo cc Hcc) by assumption. now rewrite (tryb_Ok _ _ _ _ _ E). }
    assert (E1 : oned d (S n1) (mk pre ((c :: w) ++ s)) = deeper d (fun k => oned k n1) (mk (pre ++ c :: w) s)).
    { cbn [app]. rewrite done_ws by assumption. now rewrite (tryb_Ok _ _ _ _ _ E). }
    rewrite E2. destruct d as [|d].
    + rewrite from_d_over by exact E1. apply needs_ge in H.
      replace (k <=? 0 + n) with false by (symmetry; apply Nat.leb_gt; lia). reflexivity.
    + cbn [deeper] in E1. rewrite (from_d_same _ _ d _ n1 _ _ _ _ E1). cbn [length] in *. apply IH; lia.
  - cbn [length] in *. rewrite app_length in *. cbn [length] in *.
    assert (E : @skip_comment F n1 (mk pre (c_hash :: body ++ c_lf :: s)) = Done (tt, mk (pre ++ (c_hash :: body) ++ [c_lf]) s)).
    { apply (skip_comment_lf n1 (c_hash :: body)); [|cbn [length] in *; lia]. intros [Hi|Hi]; [discriminate|tauto]. }
    assert (E2 : from (S n1) n2 acc (mk pre (c_hash :: body ++ c_lf :: s)) = from n1 n2 acc (mk (pre ++ (c_hash :: body) ++ [c_lf]) s)).
    { apply from_same. rewrite (one_hash fo cc). now rewrite (bind_Done _ _ _ _ _ E). }
    assert (E1 : oned d (S n1) (mk pre (c_hash :: body ++ c_lf :: s)) = deeper d (fun k => oned k n1) (mk (pre ++ (c_hash :: body) ++ [c_lf]) s)).
    { rewrite done_hash. now rewrite (bind_Done _ _ _ _ _ E). }
    rewrite E2. destruct d as [|d].
    + rewrite from_d_over by exact E1. apply needs_ge in H.
      replace (k <=? depth) with false by (symmetry; apply Nat.leb_gt; lia). reflexivity.
    + cbn [deeper] in E1. rewrite (from_d_same _ _ d _ n1 _ _ _ _ E1). apply IH; lia.
  - cbn [length] in *.
    assert (E : @skip_comment F n1 (mk pre (c_hash :: body)) = Done (tt, mk (pre ++ c_hash :: body) [])).
    { apply (skip_comment_eof n1 (c_hash :: body)); [|cbn [length] in *; lia]. intros [Hi|Hi]; [discriminate|tauto]. }
    destruct n1 as [|n1]; [lia|].
    assert (E2 : tokenize_one fo cc chk (S (S n1)) (mk pre (c_hash :: body)) = Done (Err EEof, mk (pre ++ c_hash :: body) [])).
    { rewrite (one_hash fo cc), (bind_Done _ _ _ _ _ E). apply one_nil. }
    assert (E1 : oned d (S (S n1)) (mk pre (c_hash :: body)) = deeper d (fun k => oned k (S n1)) (mk (pre ++ c_hash :: body) [])).
    { rewrite done_hash. now rewrite (bind_Done _ _ _ _ _ E). }
    destruct d as [|d].
    + rewrite from_d_over by exact E1. replace (S n <=? depth) with false by (symmetry; apply Nat.leb_gt; lia). reflexivity.
    + replace (S n <=? depth) with true by (symmetry; apply Nat.leb_le; lia). cbn [deeper] in E1. rewrite oned_nil in E1.
      now rewrite (from_d_eof _ _ _ _ _ _ _ E1), (from_eof _ _ _ _ _ E2).
  - rewrite app_length in *. pose proof (lexeme_nonempty fo cc _ _ _ _ Hx) as Hne.
    assert (Hl : 0 < length text) by (destruct text; [congruence|cbn; lia]).
    assert (Hq : length text < n1) by lia.
    pose proof (dlexeme _ _ _ Hx d n1 pre Hq) as E1. pose proof (lexeme_complete fo cc Hcc chk _ _ _ Hx n1 pre Hq) as E2.
    destruct (Nat.leb_spec (exponents text ty) d) as [He|He].
    2: { replace (Nat.max (n + exponents text ty) k <=? depth) with false by (symmetry; apply Nat.leb_gt; lia). now apply from_d_over. }
    replace (Nat.max (n + exponents text ty) k <=? depth) with (k <=? depth)
      by (destruct (Nat.leb_spec k depth), (Nat.leb_spec (Nat.max (n + exponents text ty) k) depth); lia).
    rewrite (from_d_ok _ _ _ _ _ _ _ _ E1), (from_ok _ _ _ _ _ _ E2). destruct n2 as [|n2]; [lia|].
    rewrite loop_from_d, loop_from. destruct s as [|c s].
    + apply needs_nil in H. subst k. reflexivity.
    + apply IH; lia.
Qed.

Lemma tokenize_exact input k depth : lex_needs fo cc chk 0 (replace_crlf input) k ->
  tokenize_d fo cc chk depth input = if k <=? depth then tokenize fo cc chk input else OutOfFuel.
Proof.
  intros H. unfold tokenize_d, tokenize. rewrite tk_new_mk.
  replace (tk_fuel (mk [] (replace_crlf input))) with (S (length (replace_crlf input) + 3)) by (unfold tk_fuel, mk; cbn [tk_chars app]; lia).
  rewrite loop_from_d, loop_from. destruct (replace_crlf input) as [|c s] eqn:E.
  - apply needs_nil in H. now subst k.
  - rewrite (needs_exact 0 (c :: s) k H depth depth) by lia. now destruct (k <=? depth).
Qed.

(** Every text that the grammar accepts has a [k]. *)
Lemma needs_exists m : forall pre s toks n, length s <= m -> lexes fo cc chk pre s toks -> exists k, lex_needs fo cc chk n s k.
Proof.
  induction m as [|m IH]; intros pre s toks n Hm H.
  - destruct s; [|cbn in Hm; lia]. exists n. constructor.
  - destruct H as [pre|pre c s toks Hw H|pre body s toks Hb H|pre body Hb|pre text ty s toks Hx H].
    + exists n. constructor.
    + destruct (span_pred is_whitespace s) as (w & r & -> & Hf & Hn). cbn [length] in Hm. rewrite app_length in Hm.
      apply (lexes_ws_run fo cc Hcc chk (pre ++ [c]) w r toks Hf) in H.
      eapply (IH _ _ _ (S n)) in H as [k Hk]; [|lia]. exists k. apply (ln_space fo cc chk n (c :: w)); auto. discriminate.
    + cbn [length] in Hm. rewrite app_length in Hm. cbn [length] in Hm.
      eapply (IH _ _ _ (S n)) in H as [k Hk]; [|lia]. exists k. now constructor.
    + exists (S n). now constructor.
    + pose proof (lexeme_nonempty fo cc _ _ _ _ Hx) as Hne. rewrite app_length in Hm.
      assert (0 < length text) by (destruct text; [congruence|cbn; lia]).
      eapply (IH _ _ _ 0) in H as [k Hk]; [|lia]. eexists. eapply ln_token; eauto.
Qed.
Lemma tokenize_needs input toks : tokenize fo cc chk input = Done (Ok toks) -> exists k, lex_needs fo cc chk 0 (replace_crlf input) k.
Proof. intros H. rewrite tokenize_ok_iff in H by assumption. eapply needs_exists; eauto. Qed.
End Tok.

(** ** The parser *)
Section Par.
Context {F : Type} (fo : FloatOps F).
Notation toks := (list (Token F)).
Notation PM A := (M (@parser F) (result A (error F))).
Definition over {A} (p : PM A) (s : toks) : Prop := forall pre, p (pm pre s) = OutOfFuel.
Lemma over_tryb {A B} (p : PM A) (k : A -> PM B) s : over p s -> over (tryb p k) s.
Proof. intros H pre. unfold tryb, bind. now rewrite H. Qed.
Lemma over_tryb_ok {A B} (p : PM A) (k : A -> PM B) s a s' : runs p s (Ok a) s' -> over (k a) s' -> over (tryb p k) s.
Proof. intros R H pre. destruct (R pre) as (c & E & R'). rewrite (tryb_Ok _ _ _ _ _ R'). apply H. Qed.

Notation heights ds := (list_max (map block_height ds)).

Section Body.
Context (block : PM (list (Directive F))) (n depth : nat).
Hypothesis block_ok : forall s ds r, length s < n -> directives fo s ds r -> heights ds < depth -> runs block s (Ok ds) r.
Hypothesis block_over : forall s ds r, length s < n -> directives fo s ds r -> depth <= heights ds -> over block s.

Lemma dbody s d r : length s < S n -> directive fo s d r ->
  (block_height d <= depth -> runs (parse_directive_body fo block) s (Ok d) r) /\
  (depth < block_height d -> over (parse_directive_body fo block) s).
Proof.
  intros Hl H. unfold parse_directive_body.
  destruct H as [p id mkD q ty s l r Hk Hp|p id mkB s ds r Hk Hd|p q path r|p q1 name q2 ty q3 class s l r Hp].
  - split; intros Hh; [|destruct Hk; cbn in Hh; lia].
    (eapply runs_tryb; [apply runs_pos|]; cbn [tok_pos]; eapply runs_tryb; [apply id_ok|]).
    apply params_params_run in Hp. destruct Hk; pick_kw; (eapply runs_tryb; [apply struct_ok; exact Hp|]; apply runs_ret).
  - assert (Hs : length s < n) by (cbn [length] in Hl; lia).
    assert (Hbh : block_height (mkB p ds) = S (heights ds)) by (destruct Hk; reflexivity). rewrite Hbh. split; intros Hh.
    + pose proof (block_ok s ds r Hs Hd ltac:(lia)) as R.
      (eapply runs_tryb; [apply runs_pos|]; cbn [tok_pos]; eapply runs_tryb; [apply id_ok|]).
      destruct Hk; pick_kw; (eapply runs_tryb; [exact R|]; apply runs_ret).
    + pose proof (block_over s ds r Hs Hd ltac:(lia)) as R.
      (eapply over_tryb_ok; [apply runs_pos|]; cbn [tok_pos]; eapply over_tryb_ok; [apply id_ok|]).
      destruct Hk; pick_kw; (apply over_tryb; exact R).
  - split; intros Hh; [|cbn in Hh; lia].
    (eapply runs_tryb; [apply runs_pos|]; cbn [tok_pos]; eapply runs_tryb; [apply id_ok|]).
    pick_kw. eapply runs_tryb; [apply str_ok|]. apply runs_ret.
  - split; intros Hh; [|cbn in Hh; lia].
    (eapply runs_tryb; [apply runs_pos|]; cbn [tok_pos]; eapply runs_tryb; [apply id_ok|]).
    apply params_params_run in Hp. pick_kw.
    eapply runs_tryb; [apply str_ok|]. eapply runs_tryb; [apply str_ok|]. eapply runs_tryb; [apply str_ok|].
    eapply runs_tryb; [apply param_lists_ok; exact Hp|]. apply runs_ret.
Qed.
End Body.

Lemma dloop_step depth n acc p id s : is_closer id = false ->
  forall pre, parse_directives_loop_d fo depth (S n) acc (pm pre (mkTok p (TIdent id) :: s))
  = (d <-? parse_directive_body fo (deeper depth (fun k => parse_directives_loop_d fo k n [])) ;;
     parse_directives_loop_d fo depth n (acc ++ [d])) (pm pre (mkTok p (TIdent id) :: s)).
Proof.
  intros Hc pre. cbn [parse_directives_loop_d]. erewrite tryb_Ok by apply peek_pm. cbv beta. cbn [tok_ty]. now rewrite Hc.
Qed.

Lemma ddirs n : forall s ds r acc depth, length s < n -> directives fo s ds r ->
  (heights ds <= depth -> runs (parse_directives_loop_d fo depth n acc) s (Ok (acc ++ ds)) r) /\
  (depth < heights ds -> over (parse_directives_loop_d fo depth n acc) s).
Proof.
  induction n as [|n IH]; intros s ds r acc depth Hl Hd; [lia|].
  inversion Hd as [p id s0 Hc|s0 d s' ds' r0 Hdir Hds]; subst.
  - split; [|cbn; lia]. intros _ pre. exists []. rewrite !app_nil_r. split; [reflexivity|]. cbn [parse_directives_loop_d].
    erewrite tryb_Ok by apply peek_pm. cbv beta. cbn [tok_ty]. apply is_closer_In in Hc. now rewrite Hc.
  - destruct (directive_ident fo _ _ _ Hdir) as (p & id & s1 & -> & Hc).
    pose proof (directive_less fo _ _ _ Hdir) as Hlt.
    destruct (dbody (deeper depth (fun k => parse_directives_loop_d fo k n [])) n depth) with (3 := Hl) (4 := Hdir) as [B1 B2].
    { intros s2 ds2 r2 H2 Hd2 Hh. destruct depth as [|depth]; [lia|]. cbn [deeper].
      apply (IH s2 ds2 r2 [] depth H2 Hd2). lia. }
    { intros s2 ds2 r2 H2 Hd2 Hh. destruct depth as [|depth]; [intros pre; reflexivity|]. cbn [deeper].
      apply (IH s2 ds2 r2 [] depth H2 Hd2). lia. }
    cbn [map]. change (list_max (block_height d :: map block_height ds')) with (Nat.max (block_height d) (heights ds')).
    destruct (IH s' ds' r (acc ++ [d]) depth ltac:(cbn [length] in *; lia) Hds) as [I1 I2]. rewrite <- app_assoc in I1. cbn [app] in I1.
    assert (St : forall a r', runs (x <-? parse_directive_body fo (deeper depth (fun k => parse_directives_loop_d fo k n [])) ;;
        parse_directives_loop_d fo depth n (acc ++ [x])) (mkTok p (TIdent id) :: s1) a r' ->
      runs (parse_directives_loop_d fo depth (S n) acc) (mkTok p (TIdent id) :: s1) a r').
    { intros a r' H pre. rewrite dloop_step by assumption. apply H. }
    assert (So : over (x <-? parse_directive_body fo (deeper depth (fun k => parse_directives_loop_d fo k n [])) ;;
        parse_directives_loop_d fo depth n (acc ++ [x])) (mkTok p (TIdent id) :: s1) ->
      over (parse_directives_loop_d fo depth (S n) acc) (mkTok p (TIdent id) :: s1)).
    { intros H pre. rewrite dloop_step by assumption. apply H. }
    split; intros Hh.
    + apply St. eapply runs_tryb; [apply B1; lia|]. apply I1. lia.
    + apply So. destruct (le_lt_dec (block_height d) depth) as [Hb|Hb].
      * eapply over_tryb_ok; [apply B1; lia|]. apply I2. lia.
      * apply over_tryb. apply B2. lia.
Qed.

Lemma parse_tokens_exact s x depth : parse_tokens fo s = Done (Ok x) ->
  parse_tokens_d fo depth s = if block_height (snd x) <=? depth then Done (Ok x) else OutOfFuel.
Proof.
  intros H. apply parse_tokens_iff in H. destruct H as [s0 pres s' w r Hp Hd]. cbn [snd].
  destruct (pre_main fo _ s0 (fuel_pm [] s0)) as (H1 & _ & _).
  destruct (H1 pres s' [] Hp []) as (c & E & R). cbn [app] in R. change (pm [] s0) with (mkPr s0 0) in R.
  change (pr_fuel (pm [] s0)) with (pr_fuel (mkPr s0 0)) in R.
  change (parse_predirectives_loop fo (pr_fuel (mkPr s0 0)) [] (mkPr s0 0)) with (parse_predirectives fo (mkPr s0 0)) in R.
  unfold parse_tokens_d. rewrite (tryb_Ok _ _ _ _ _ R). unfold parse_directive_d.
  destruct (dbody (deeper depth (fun k => st <- get ;; parse_directives_loop_d fo k (pr_fuel st) [])) (length s') depth)
    with (4 := Hd) as [B1 B2]; [| |lia|].
  { intros s2 ds2 r2 H2 Hd2 Hh pre. destruct depth as [|depth]; [lia|]. cbn [deeper]. unfold bind, get.
    apply (ddirs (pr_fuel (pm pre s2)) s2 ds2 r2 [] depth (fuel_pm pre s2) Hd2); lia. }
  { intros s2 ds2 r2 H2 Hd2 Hh pre. destruct depth as [|depth]; [reflexivity|]. cbn [deeper]. unfold bind, get.
    apply (ddirs (pr_fuel (pm pre s2)) s2 ds2 r2 [] depth (fuel_pm pre s2) Hd2); lia. }
  destruct (Nat.leb_spec (block_height w) depth) as [Hh|Hh].
  - destruct (B1 Hh c) as (c' & E' & R'). now rewrite (tryb_Ok _ _ _ _ _ R').
  - unfold tryb at 1, bind at 1. now rewrite (B2 Hh c).
Qed.
End Par.

Lemma parse_exact {F} (fo : FloatOps F) cc (Hcc : cc_ok cc) chk input x : parse fo cc chk input = Done (Ok x) ->
  exists k, lex_needs fo cc chk 0 (replace_crlf input) k /\
  forall depth, parse_d fo cc chk depth input = if Nat.max k (block_height (snd x)) <=? depth then Done (Ok x) else OutOfFuel.
Proof.
  unfold parse. intros H. destruct (tokenize fo cc chk input) as [[ts|e]| |] eqn:E; try discriminate.
  destruct (tokenize_needs fo cc chk Hcc _ _ E) as [k Hk]. exists k. split; [assumption|]. intros depth.
  unfold parse_d. rewrite (tokenize_exact fo cc chk Hcc _ _ depth Hk), E.
  destruct (Nat.leb_spec k depth) as [H1|H1].
  - rewrite (parse_tokens_exact fo _ _ depth H).
    destruct (Nat.leb_spec (block_height (snd x)) depth), (Nat.leb_spec (Nat.max k (block_height (snd x))) depth); try reflexivity; lia.
  - replace (Nat.max k (block_height (snd x)) <=? depth) with false by (symmetry; apply Nat.leb_gt; lia). reflexivity.
Qed.
