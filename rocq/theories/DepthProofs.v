(** Stack depth: a depth linear in the input is enough, and no constant depth is. *)
From Verif Require Import Base TokModel ParModel LexSpec SceneSpec SceneObs TokProofs LexProofs LexThms ParProofs DirProofs TextThms
  SceneThms KindProofs SceneProps PropsLexLemmas PrintSpec DepthModel.

(** [rel B o o']: the bounded run [o] ends like the unbounded one, or (only if [B]) overflows. *)
Definition rel {A} (B : Prop) (o o' : out A) : Prop := o = o' \/ (B /\ o = OutOfFuel).
Definition relm {S A} (B : Prop) (m m' : M S A) : Prop := forall s, rel B (m s) (m' s).
Lemma relm_refl {S A} B (m : M S A) : relm B m m.
Proof. intros s. now left. Qed.
Lemma relm_bind {S A C} B (m m' : M S A) (k k' : A -> M S C) :
  relm B m m' -> (forall a, relm B (k a) (k' a)) -> relm B (bind m k) (bind m' k').
Proof.
  intros Hm Hk s. unfold bind. destruct (Hm s) as [->|[HB ->]]; [|right; auto].
  destruct (m' s) as [[a s']| |]; [apply Hk|now left|now left].
Qed.
Lemma relm_tryb {S A C E} B (m m' : M S (result A E)) (k k' : A -> M S (result C E)) :
  relm B m m' -> (forall a, relm B (k a) (k' a)) -> relm B (tryb m k) (tryb m' k').
Proof. intros Hm Hk. apply relm_bind; [assumption|]. intros [a|e]; [apply Hk|apply relm_refl]. Qed.
Lemma relm_weaken {S A} (B B' : Prop) (m m' : M S A) : (B -> B') -> relm B m m' -> relm B' m m'.
Proof. intros H Hm s. destruct (Hm s) as [E|[HB E]]; [now left|right; auto]. Qed.
Lemma relm_deeper {St A} depth fuel (call : nat -> M St A) m : (forall d, relm (d < fuel) (call d) m) ->
  relm (depth < S fuel) (deeper depth call) m.
Proof.
  intros H. destruct depth as [|d]; cbn.
  - intros s. right. split; [lia|reflexivity].
  - eapply relm_weaken; [|apply H]. lia.
Qed.

Lemma rel_tryb {St A C E} B (m m' : M St (result A E)) (k : A -> M St (result C E)) s : rel B (m s) (m' s) -> rel B (tryb m k s) (tryb m' k s).
Proof. intros [H|[HB H]]; unfold tryb, bind; rewrite H; [now left|right; auto]. Qed.
Lemma rel_fst {St A} B (o o' : out (A * St)) : rel B o o' ->
  rel B (match o with Done (r, _) => Done r | Panic => Panic | OutOfFuel => OutOfFuel end)
        (match o' with Done (r, _) => Done r | Panic => Panic | OutOfFuel => OutOfFuel end).
Proof. intros [->|[HB ->]]; [now left|right; auto]. Qed.

Ltac pick_kw := repeat (first
  [ rewrite str_eqb_refl
  | match goal with |- context [str_eqb (s2l ?a) (s2l ?b)] => change (str_eqb (s2l a) (s2l b)) with false end ]; cbv iota).

Lemma replace_crlf_length s : length (replace_crlf s) <= length s.
Proof.
  assert (X : forall k s, length s <= k -> length (replace_crlf s) <= length s).
    { clear. induction k as [|k IH]; intros [|c [|d s]] Hk; try (cbn [length] in *; cbn; lia).
      - cbn. destruct (c =? c_cr)%N; cbn; lia.
      - change (replace_crlf (c :: d :: s)) with (if (c =? c_cr)%N then (if (d =? c_lf)%N then c_lf :: replace_crlf s
          else c :: replace_crlf (d :: s)) else c :: replace_crlf (d :: s)).
        pose proof (IH s) as I1. pose proof (IH (d :: s)) as I2. cbn [length] in Hk, I2.
        destruct (c =? c_cr)%N; [destruct (d =? c_lf)%N|]; cbn [length]; lia. }
  now apply (X (length s)).
Qed.

Section D.
Context {F : Type} (fo : FloatOps F) (cc : CharClass) (chk : bool).

Lemma prelude_rel B l l' : (forall a b c, relm B (l a b c) (l' a b c)) -> relm B (@num_prelude F l) (num_prelude l').
Proof.
  intros H. unfold num_prelude. apply relm_bind; [apply relm_refl|]. intros a. apply relm_bind; [apply relm_refl|]. intros r.
  apply relm_bind; [apply relm_refl|]. intros b. apply H.
Qed.
Lemma num_loop_rel fuel : forall depth sp nc fl,
  relm (depth < fuel) (num_loop_d fo cc chk depth fuel sp nc fl) (num_loop fo cc chk fuel sp nc fl).
Proof.
  induction fuel as [|n IH]; intros depth sp nc fl; [intros ?; now left|]. cbn [num_loop_d num_loop].
  apply relm_bind; [apply relm_refl|]. intros [ch|[m|]]; try apply relm_refl.
  destruct (is_numeric cc ch).
  { apply relm_tryb; [apply relm_refl|]. intros c. eapply relm_weaken; [|apply IH]. lia. }
  destruct (ch =? c_dot)%N.
  { destruct fl; [apply relm_refl|]. apply relm_tryb; [apply relm_refl|]. intros c. eapply relm_weaken; [|apply IH]. lia. }
  destruct (ch =? c_e)%N; [|apply relm_refl]. destruct nc; [apply relm_refl|].
  apply relm_bind; [apply relm_refl|]. intros _. apply relm_tryb; [|intros t; apply relm_refl].
  apply relm_deeper. intros d. apply prelude_rel. intros. apply IH.
Qed.
Lemma one_rel fuel : forall depth, relm (depth < fuel) (tokenize_one_d fo cc chk depth fuel) (tokenize_one fo cc chk fuel).
Proof.
  induction fuel as [|n IH]; intros depth; [intros ?; now left|]. cbn [tokenize_one_d tokenize_one].
  apply relm_bind; [apply relm_refl|]. intros [c|e]; [|apply relm_refl].
  destruct (c =? c_hash)%N. { apply relm_bind; [apply relm_refl|]. intros _. apply relm_deeper. apply IH. }
  destruct (c =? c_quote)%N; [apply relm_refl|]. destruct (c =? c_lbrack)%N; [apply relm_refl|].
  destruct (c =? c_rbrack)%N; [apply relm_refl|].
  destruct (starts_num cc c).
  { unfold tokenize_num. apply prelude_rel. intros. eapply relm_weaken; [|apply num_loop_rel]. lia. }
  destruct (is_whitespace c). { apply relm_tryb; [apply relm_refl|]. intros _. apply relm_deeper. apply IH. }
  destruct (is_alphabetic cc c); apply relm_refl.
Qed.
Lemma tok_loop_rel fuel : forall depth acc, relm (depth < fuel) (tokenize_loop_d fo cc chk depth fuel acc) (tokenize_loop fo cc chk fuel acc).
Proof.
  induction fuel as [|n IH]; intros depth acc; [intros ?; now left|]. cbn [tokenize_loop_d tokenize_loop].
  apply relm_bind; [apply relm_refl|]. intros t. destruct (negb (tk_is_empty t)); [|apply relm_refl].
  apply relm_bind; [eapply relm_weaken; [|apply one_rel]; lia|]. intros [tok|[m|]]; try apply relm_refl.
  eapply relm_weaken; [|apply IH]. lia.
Qed.
Lemma tokenize_rel depth input : rel (depth < length input + 4) (tokenize_d fo cc chk depth input) (tokenize fo cc chk input).
Proof.
  unfold tokenize_d, tokenize. destruct (tok_loop_rel (tk_fuel (tk_new input)) depth [] (tk_new input)) as [->|[H ->]].
  - now left.
  - right. split; [|reflexivity]. unfold tk_fuel, tk_new in H. cbn in H.
    pose proof (replace_crlf_length input). lia.
Qed.

Lemma body_rel B b b' : relm B b b' -> relm B (parse_directive_body fo b) (parse_directive_body fo b').
Proof.
  intros H. unfold parse_directive_body. apply relm_tryb; [apply relm_refl|]. intros p. apply relm_tryb; [apply relm_refl|]. intros id.
  destruct (str_eqb id (s2l "Material")); [apply relm_refl|].
  destruct (str_eqb id (s2l "Shape")); [apply relm_refl|].
  destruct (str_eqb id (s2l "LightSource")); [apply relm_refl|].
  destruct (str_eqb id (s2l "AreaLightSource")); [apply relm_refl|].
  destruct (str_eqb id (s2l "AttributeBegin")); [apply relm_tryb; [assumption|intros; apply relm_refl]|].
  destruct (str_eqb id (s2l "TransformBegin")); [apply relm_tryb; [assumption|intros; apply relm_refl]|].
  destruct (str_eqb id (s2l "WorldBegin")); [apply relm_tryb; [assumption|intros; apply relm_refl]|].
  apply relm_refl.
Qed.
Lemma dir_loop_rel fuel : forall depth acc, relm (depth < fuel) (parse_directives_loop_d fo depth fuel acc) (parse_directives_loop fo fuel acc).
Proof.
  induction fuel as [|n IH]; intros depth acc; [intros ?; now left|]. cbn [parse_directives_loop_d parse_directives_loop].
  apply relm_tryb; [apply relm_refl|]. intros t. destruct (tok_ty t); try apply relm_refl.
  destruct (is_closer s); [apply relm_refl|]. apply relm_tryb.
  - apply body_rel. apply relm_deeper. intros d. apply IH.
  - intros d. eapply relm_weaken; [|apply IH]. lia.
Qed.

Lemma pm_tokens (pre s : list (Token F)) : pr_tokens (pm pre s) = pre ++ s.
Proof. reflexivity. Qed.
Lemma parse_tokens_rel depth toks : rel (depth < length toks + 2) (parse_tokens_d fo depth toks) (parse_tokens fo toks).
Proof.
  unfold parse_tokens_d, parse_tokens, parse_tokens_m.
  destruct (pre_main fo _ toks (fuel_pm [] toks)) as (H1 & H2 & H3).
  assert (Hp : forall st, parse_predirectives fo st = parse_predirectives_loop fo (pr_fuel st) [] st) by reflexivity.
  destruct H3 as [(pres & r & Hpre)|[He|Hf]].
  - destruct (predirectives_world fo _ _ _ Hpre) as (p & s' & ->).
    destruct (H1 pres _ [] Hpre []) as (c & E & R). cbn [app] in R. change (pm [] toks) with (mkPr toks 0) in R.
    change (pr_fuel (pm [] toks)) with (pr_fuel (mkPr toks 0)) in R. rewrite <- Hp in R.
    rewrite !(tryb_Ok _ _ _ _ _ R). apply rel_fst. apply rel_tryb. unfold parse_directive_d, parse_directive, parse_directive_body.
    destruct (id_ok p (s2l "WorldBegin") s' c) as (c' & E' & R').
    rewrite !(tryb_Ok _ _ _ _ _ (pos_pm c (mkTok p (TIdent (s2l "WorldBegin"))) s')). cbn [tok_pos].
    rewrite !(tryb_Ok _ _ _ _ _ R'). pick_kw. apply rel_tryb.
    unfold deeper. destruct depth as [|d]; [right; split; [lia|reflexivity]|].
    unfold parse_directives. 
    set (st := pm (c ++ c') s'). unfold bind, get.
    destruct (dir_loop_rel (pr_fuel st) d [] st) as [->|[HB ->]]; [now left|].
    right. split; [|reflexivity]. unfold pr_fuel, st in HB. rewrite pm_tokens in HB.
    assert (length toks = length ((c ++ c') ++ s')) as ->.
    { f_equal. rewrite <- app_assoc, <- E'. exact E. }
    lia.
  - left. destruct (H2 [] He []) as [st R]. change (pm [] toks) with (mkPr toks 0) in R.
    change (pr_fuel (pm [] toks)) with (pr_fuel (mkPr toks 0)) in R. rewrite <- Hp in R.
    now rewrite !(tryb_Err _ _ _ _ _ R).
  - left. destruct (Hf []) as [m R0]. destruct (R0 []) as [st R]. change (pm [] toks) with (mkPr toks 0) in R.
    change (pr_fuel (pm [] toks)) with (pr_fuel (mkPr toks 0)) in R. rewrite <- Hp in R.
    now rewrite !(tryb_Err _ _ _ _ _ R).
Qed.
(** Tokenizing makes no more tokens than there are characters. *)
Lemma lexes_length pre t toks : lexes fo cc chk pre t toks -> length toks <= length t.
Proof.
  induction 1 as [pre|pre c s toks Hw H IH|pre body s toks Hb H IH|pre body Hb|pre text ty s toks Hx H IH]; cbn [length] in *; try lia.
  - rewrite app_length. cbn. lia.
  - rewrite app_length. pose proof (lexeme_nonempty fo cc _ _ _ _ Hx). destruct text; [congruence|]. cbn. lia.
Qed.
End D.

Lemma parse_rel {F} (fo : FloatOps F) cc (Hcc : cc_ok cc) chk depth input :
  parse_d fo cc chk depth input = parse fo cc chk input \/
  (depth < length input + 4 /\ parse_d fo cc chk depth input = OutOfFuel).
Proof.
  unfold parse_d, parse. destruct (tokenize_rel fo cc chk depth input) as [->|[H ->]]; [|right; auto].
  destruct (tokenize fo cc chk input) as [[toks|e]| |] eqn:E; try (now left).
  destruct (parse_tokens_rel fo depth toks) as [->|[H ->]]; [now left|]. right. split; [|reflexivity].
  rewrite tokenize_ok_iff in E by assumption. apply lexes_length in E. pose proof (replace_crlf_length input). lia.
Qed.

(** ** No constant depth is enough *)
Definition comments (k : nat) : str := concat (repeat [c_hash; c_lf] k).
Lemma comments_layout k : layout (comments k).
Proof. induction k as [|k IH]; [constructor|]. unfold comments. cbn [repeat concat]. apply (ly_comment []); [intros []|exact IH]. Qed.
Definition comments_text (k : nat) : str := comments k ++ s2l "WorldBegin WorldEnd".
Lemma comments_no_cr k : ~ In c_cr (comments_text k).
Proof.
  unfold comments_text. rewrite in_app_iff. intros [H|H]; [|vm_compute in H; intuition discriminate].
  induction k as [|k IH]; [contradiction|]. unfold comments in H. cbn in H. destruct H as [H|[H|H]]; try discriminate. tauto.
Qed.
Lemma comments_overflow k d n pre b : d < k -> tokenize_one_d fo_sym cc_ascii true d n (mk pre (comments k ++ b)) = OutOfFuel.
Proof.
  revert d n pre; induction k as [|k IH]; intros d n pre Hd; [lia|]. destruct n as [|n]; [reflexivity|].
  cbn [tokenize_one_d]. unfold comments. cbn [repeat concat app]. erewrite bind_Done by apply peek_mk. cbv iota. cbn [N.eqb Pos.eqb c_hash].
  destruct (le_lt_dec n 1) as [Hn|Hn].
  - unfold bind at 1. destruct n as [|[|n]]; [reflexivity| |lia]. cbn [skip_comment]. unfold bind at 1. rewrite next_mk. reflexivity.
  - erewrite bind_Done.
    2: { apply (skip_comment_lf n [c_hash]); [|cbn; lia]. intros [H|[]]; discriminate. }
    destruct d as [|d]; [reflexivity|]. cbn [deeper]. apply IH. lia.
Qed.
Lemma comments_parse k : exists x, parse fo_sym cc_ascii true (comments_text k) = Done (Ok x).
Proof.
  assert (E : exists tb, tokenize fo_sym cc_ascii true (s2l "WorldBegin WorldEnd") = Done (Ok tb) /\
              exists y, parse_tokens fo_sym tb = Done (Ok y)) by (eexists; split; [vm_compute; reflexivity|eexists; vm_compute; reflexivity]).
  destruct E as (tb & E & y & Ey). rewrite tokenize_ok_iff in E by exact cc_ascii_ok.
  change (replace_crlf (s2l "WorldBegin WorldEnd")) with (s2l "WorldBegin WorldEnd") in E.
  destruct (lexes_kinds fo_sym cc_ascii true _ _ _ E ([] ++ comments k)) as (tb' & E' & Hk).
  rewrite <- (lexes_layout fo_sym cc_ascii cc_ascii_ok true _ (comments_layout k)) in E'.
  assert (Et : tokenize fo_sym cc_ascii true (comments_text k) = Done (Ok tb')).
  { rewrite tokenize_ok_iff by exact cc_ascii_ok. now rewrite replace_crlf_id by apply comments_no_cr. }
  pose proof (kinds_parse fo_sym _ _ Hk) as Hs. rewrite Ey in Hs. unfold parse. rewrite Et. unfold same_outcome in Hs.
  destruct (parse_tokens fo_sym tb') as [[x|[m|]]| |]; try contradiction; eauto.
Qed.
Lemma comments_refuted depth : exists input x,
  parse fo_sym cc_ascii true input = Done (Ok x) /\ parse_d fo_sym cc_ascii true depth input = OutOfFuel.
Proof.
  destruct (comments_parse (S depth)) as [x Ex]. exists (comments_text (S depth)), x. split; [exact Ex|].
  unfold parse_d, tokenize_d. rewrite tk_new_mk, replace_crlf_id by apply comments_no_cr.
  replace (tk_fuel (mk [] (comments_text (S depth)))) with (S (length (comments_text (S depth)) + 3))
    by (unfold tk_fuel, mk; cbn [tk_chars app]; lia).
  cbn [tokenize_loop_d]. unfold bind at 1, get. rewrite is_empty_mk.
  change (comments_text (S depth)) with (c_hash :: c_lf :: comments_text depth) at 1. cbn [negb]. unfold bind at 1.
  unfold comments_text at 2. now rewrite comments_overflow by lia.
Qed.

Section B.
Context {F : Type} (fo : FloatOps F).
Definition nested (k : nat) : list (Token F) := repeat (kw "AttributeBegin") k ++ [kw "WorldEnd"].
Lemma nested_parse k : exists ds, directives fo (nested k) ds [kw "WorldEnd"].
Proof.
  induction k as [|k [ds IH]].
  - exists []. apply ds_close. cbn. tauto.
  - eexists. eapply ds_cons; [eapply di_block; [constructor|exact IH]|]. apply ds_close. cbn. tauto.
Qed.
Lemma nested_overflow k d n acc pre : d < k -> parse_directives_loop_d fo d n acc (pm pre (nested k)) = OutOfFuel.
Proof.
  revert d n acc pre; induction k as [|k IH]; intros d n acc pre Hd; [lia|]. destruct n as [|n]; [reflexivity|].
  cbn [parse_directives_loop_d]. unfold nested. cbn [repeat app].
  rewrite (tryb_Ok _ _ _ _ _ (peek_pm pre (kw "AttributeBegin") (repeat (kw "AttributeBegin") k ++ [kw "WorldEnd"]))).
  cbn [tok_ty kw tk0]. change (is_closer (s2l "AttributeBegin")) with false. cbv iota.
  unfold tryb at 1, bind at 1. unfold parse_directive_body.
  rewrite (tryb_Ok _ _ _ _ _ (pos_pm pre (kw "AttributeBegin") (repeat (kw "AttributeBegin") k ++ [kw "WorldEnd"]))). cbn [tok_pos kw tk0].
  destruct (id_ok pos0 (s2l "AttributeBegin") (repeat (kw "AttributeBegin") k ++ [kw "WorldEnd"]) pre) as (c' & E' & R').
  rewrite (tryb_Ok _ _ _ _ _ R'). pick_kw. unfold tryb at 1, bind at 1.
  destruct d as [|d]; [reflexivity|]. cbn [deeper]. fold (nested k). now rewrite IH by lia.
Qed.
Lemma blocks_refuted depth : exists s x, parse_tokens fo s = Done (Ok x) /\ parse_tokens_d fo depth s = OutOfFuel.
Proof.
  exists (kw "WorldBegin" :: nested (S depth)).
  destruct (nested_parse (S depth)) as [ds Hds]. eexists. split.
  - apply parse_tokens_iff. econstructor; [apply pds_world|]. apply (di_block fo pos0 _ DWorld); [constructor|exact Hds].
  - unfold parse_tokens_d.
    assert (R : parse_predirectives fo (mkPr (kw "WorldBegin" :: nested (S depth)) 0)
      = Done (Ok [], pm [] (kw "WorldBegin" :: nested (S depth)))).
    { unfold parse_predirectives, bind, get. cbn [pr_fuel parse_predirectives_loop].
      change (mkPr (kw "WorldBegin" :: nested (S depth)) 0) with (pm [] (kw "WorldBegin" :: nested (S depth))).
      rewrite (tryb_Ok _ _ _ _ _ (peek_pm [] (kw "WorldBegin") (nested (S depth)))). reflexivity. }
    rewrite (tryb_Ok _ _ _ _ _ R). unfold tryb at 1, bind at 1. unfold parse_directive_d, parse_directive_body.
    rewrite (tryb_Ok _ _ _ _ _ (pos_pm [] (kw "WorldBegin") (nested (S depth)))). cbn [tok_pos kw tk0].
    destruct (id_ok pos0 (s2l "WorldBegin") (nested (S depth)) []) as (c' & E' & R').
    rewrite (tryb_Ok _ _ _ _ _ R'). pick_kw. unfold tryb at 1, bind at 1. destruct depth as [|d]; [reflexivity|].
    cbn [deeper]. unfold bind at 1, get. now rewrite nested_overflow by lia.
Qed.
End B.
