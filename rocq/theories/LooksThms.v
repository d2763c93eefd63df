(** The bounds on how often the input is looked at, for whole runs. *)
From Verif Require Import Base TokModel ParModel LexSpec SceneSpec SceneObs SceneThms PrintSpec DirProofs DepthProofs TraceModel TraceCore LooksSpec LooksTok LooksPar.
Open Scope mon_scope.

(** ** Sums over records *)
Lemma sum_one (f g : nat -> nat) x s : NoDup s -> In x s ->
  list_sum (map (fun i => ((if Nat.eq_dec x i then 1 else 0) + g i) * f i) s) = f x + list_sum (map (fun i => g i * f i) s).
Proof.
  induction s as [|y s IH]; intros ND HI; [easy|]. inversion ND as [|? ? H1 H2]; subst. cbn [map list_sum fold_right].
  change (fold_right Nat.add 0) with list_sum.
  destruct (Nat.eq_dec x y) as [->|NE].
  - enough (list_sum (map (fun i => ((if Nat.eq_dec y i then 1 else 0) + g i) * f i) s) = list_sum (map (fun i => g i * f i) s)) as -> by lia.
    f_equal. apply map_ext_in. intros i Hi. destruct (Nat.eq_dec y i); [congruence|reflexivity].
  - rewrite IH; auto; [lia|]. destruct HI; [congruence|auto].
Qed.
Lemma weigh (f : nat -> nat) n l : Forall (fun i => i <= n) l ->
  list_sum (map f l) = list_sum (map (fun i => looks_at l i * f i) (seq 0 (S n))).
Proof.
  induction 1 as [|x l Hx Hl IH].
  - cbn [map list_sum fold_right]. symmetry. induction (seq 0 (S n)) as [|y s IHs]; [reflexivity|exact IHs].
  - cbn [map list_sum fold_right]. change (fold_right Nat.add 0) with list_sum. rewrite IH.
    rewrite <- sum_one; [|apply seq_NoDup|apply in_seq; lia].
    f_equal. apply map_ext. intros i. unfold looks_at. cbn [count_occ]. destruct (Nat.eq_dec x i); reflexivity.
Qed.
Lemma sum_le (f g : nat -> nat) s : (forall i, f i <= g i) -> list_sum (map f s) <= list_sum (map g s).
Proof. intros H. induction s as [|x s IH]; [reflexivity|]. cbn. specialize (H x). unfold list_sum in IH. lia. Qed.
Lemma sum_mult (f : nat -> nat) m s : list_sum (map (fun i => m * f i) s) = m * list_sum (map f s).
Proof. induction s as [|x s IH]; [cbn; lia|]. cbn. unfold list_sum in IH. lia. Qed.
Lemma sum_const m (l : list nat) : list_sum (map (fun _ => m) l) = m * length l.
Proof. induction l as [|x s IH]; [cbn; lia|]. cbn. unfold list_sum in IH. lia. Qed.
Lemma record_length n m l : Forall (fun i => i <= n) l -> (forall i, looks_at l i <= m) -> length l <= m * (n + 1).
Proof.
  intros Hn Hm. rewrite <- (Nat.mul_1_l (length l)), <- sum_const, (weigh _ n) by exact Hn.
  etransitivity; [apply (sum_le _ (fun _ => m)); intros i; specialize (Hm i); lia|]. rewrite sum_const, seq_length. lia.
Qed.

(** ** The tokenizer *)
Section Tok.
Context {F : Type} (fo : FloatOps F) (cc : CharClass) (chk : bool).
Lemma tokenize_same input :
  tokenize fo cc chk input = match tokenize_t fo cc chk input with Done (r, _) => Done r | Panic => Panic | OutOfFuel => OutOfFuel end.
Proof.
  unfold tokenize, tokenize_t. pose proof (loop_ob fo cc chk (replace_crlf input) 0 (tk_fuel (tk_new input)) [] (tk_new input) 0) as H.
  unfold ob in H. destruct (tokenize_loop _ _ _ _ _ _) as [[r s]| |].
  - destruct H as (d & E & _); [repeat split; cbn; lia|]. now rewrite E.
  - rewrite H; [reflexivity|repeat split; cbn; lia].
  - rewrite H; [reflexivity|repeat split; cbn; lia].
Qed.
Lemma tokenize_looks input r l : tokenize_t fo cc chk input = Done (r, l) ->
  (forall i, looks_at l i <= 5) /\ Forall (fun i => i <= length (replace_crlf input)) l /\
  match r with Ok ts => length ts <= length input /\ list_sum (map text ts) <= length input | Err _ => True end.
Proof.
  unfold tokenize_t. intros E.
  assert (forall i0, looks_at l i0 <= 5 /\ Forall (fun i => i <= length (replace_crlf input)) l /\
    match r with Ok ts => length ts <= length input /\ list_sum (map text ts) <= length input | Err _ => True end) as H.
  { intros i0. pose proof (loop_ob fo cc chk (replace_crlf input) i0 (tk_fuel (tk_new input)) [] (tk_new input) 0) as H.
    unfold ob in H. destruct (tokenize_loop fo _ _ _ _ _) as [[r' s]| |].
    - destruct H as (d & E1 & H1 & b & (_ & _ & Hb) & _ & _ & H2 & H3 & H4); [repeat split; cbn; lia|].
      rewrite E1 in E. injection E as <- <-. cbn [snd]. rewrite app_nil_r.
      pose proof (replace_crlf_length input). split; [exact H2|split; [exact H1|]].
      destruct r'; [|exact I]. cbn [length map list_sum fold_right] in H4. lia.
    - rewrite H in E; [discriminate|repeat split; cbn; lia].
    - rewrite H in E; [discriminate|repeat split; cbn; lia]. }
  split; [intros i; apply H|apply (H 0)].
Qed.
End Tok.

(** ** The parser *)
Section Par.
Context {F : Type} (fo : FloatOps F).
Lemma tokens_same toks :
  parse_tokens fo toks = match parse_tokens_t fo toks with Done (r, _) => Done r | Panic => Panic | OutOfFuel => OutOfFuel end.
Proof.
  unfold parse_tokens, parse_tokens_t. pose proof (tokens_ob fo toks 0) as H.
  unfold ob in H. destruct (parse_tokens_m _ _) as [[r s]| |].
  - destruct H as (d & E & _). now rewrite E.
  - now rewrite H.
  - now rewrite H.
Qed.
Lemma parse_same cc chk input :
  parse fo cc chk input = match parse_t fo cc chk input with Done (r, _, _) => Done r | Panic => Panic | OutOfFuel => OutOfFuel end.
Proof.
  unfold parse, parse_t. rewrite tokenize_same. destruct (tokenize_t fo cc chk input) as [[[ts|e] l]| |]; try reflexivity.
  rewrite tokens_same. now destruct (parse_tokens_t fo ts) as [[r l']| |].
Qed.
Lemma is_closer_closing (t : Token F) s : tok_ty t = TIdent s -> is_closer s = true -> closing t.
Proof.
  intros E H. unfold is_closer in H. unfold closing. rewrite E.
  apply Bool.orb_true_iff in H as [H|H]; [apply Bool.orb_true_iff in H as [H|H]|]; apply ParProofs.str_eqb_eq in H; subst; auto.
Qed.
Lemma tokens_looks toks r l : parse_tokens_t fo toks = Done (r, l) ->
  length l <= 6 * length toks + 10 /\ Forall (fun i => i <= length toks) l /\
  (forall i, (forall t, nth_error toks i = Some t -> ~ closing t) -> looks_at l i <= 6).
Proof.
  unfold parse_tokens_t. intros E.
  assert (forall i, length l <= 6 * length toks + 10 /\ Forall (fun i => i <= length toks) l /\ (~ closer toks i -> looks_at l i <= 6)) as H.
  { intros i. pose proof (tokens_ob fo toks i) as H. unfold ob in H. destruct (parse_tokens_m _ _) as [[r' s]| |].
    - destruct H as (d & E1 & H1 & H2 & H3). rewrite E1 in E. injection E as <- <-. cbn [snd]. rewrite app_nil_r. auto.
    - now rewrite H in E.
    - now rewrite H in E. }
  split; [apply (H 0)|]. split; [apply (H 0)|]. intros i Hi. apply H. intros (p & s & E1 & C). apply (Hi _ E1). now apply (is_closer_closing _ s).
Qed.

Definition tx (toks : list (Token F)) (i : nat) : nat := match nth_error toks i with Some t => text t | None => 0 end.
Lemma text_seen_sum toks l : text_seen toks l = list_sum (map (tx toks) l).
Proof. induction l as [|i l IH]; [reflexivity|]. cbn. now rewrite IH. Qed.
Lemma tx_sum toks : list_sum (map (tx toks) (seq 0 (S (length toks)))) = list_sum (map text toks).
Proof.
  assert (forall n, list_sum (map (tx toks) (seq 0 (n + length toks))) = list_sum (map text toks)) as H; [|apply (H 1)].
  intros n. induction toks as [|t toks IH].
  - cbn [length]. rewrite Nat.add_0_r. induction (seq 0 n) as [|x s IHs]; [reflexivity|]. cbn in *. unfold tx at 1. destruct x; exact IHs.
  - replace (n + length (t :: toks)) with (S (n + length toks)) by (cbn; lia). cbn [seq map list_sum fold_right].
    change (fold_right Nat.add 0) with list_sum. rewrite <- IH. f_equal. rewrite <- seq_shift, map_map. reflexivity.
Qed.
Lemma closing_dec (t : Token F) : {closing t} + {~ closing t}.
Proof.
  destruct t as [p ty]. unfold closing. cbn [tok_ty]. destruct ty; try (right; intros [H|[H|H]]; discriminate).
  destruct (list_eq_dec N.eq_dec s (s2l "AttributeEnd")) as [->|N1]; [left; auto|].
  destruct (list_eq_dec N.eq_dec s (s2l "TransformEnd")) as [->|N2]; [left; auto|].
  destruct (list_eq_dec N.eq_dec s (s2l "WorldEnd")) as [->|N3]; [left; auto|].
  right. intros [H|[H|H]]; injection H; auto.
Qed.
Lemma closing_text (t : Token F) : closing t -> text t <= 12.
Proof. unfold closing, text. intros [->|[->| ->]]; cbn; lia. Qed.
Lemma text_looks toks r l : parse_tokens_t fo toks = Done (r, l) ->
  text_seen toks l <= 6 * list_sum (map text toks) + 12 * (6 * length toks + 10).
Proof.
  intros E. apply tokens_looks in E as (H1 & H2 & H3). rewrite text_seen_sum.
  set (g := fun i => match nth_error toks i with Some t => if closing_dec t then 0 else text t | None => 0 end).
  assert (forall i, tx toks i <= g i + 12) as Hg.
  { intros i. unfold tx, g. destruct (nth_error toks i) as [t|]; [|lia]. destruct (closing_dec t) as [C|C]; [apply closing_text in C|]; lia. }
  assert (forall i, g i <= tx toks i) as Hg2.
  { intros i. unfold tx, g. destruct (nth_error toks i) as [t|]; [|lia]. destruct (closing_dec t); lia. }
  assert (list_sum (map (tx toks) l) <= list_sum (map g l) + 12 * length l) as A.
  { clear H1 H2 H3. induction l as [|i l IH]; [cbn; lia|]. cbn. specialize (Hg i). unfold list_sum in IH. lia. }
  assert (list_sum (map g l) <= 6 * list_sum (map text toks)); [|lia].
  rewrite (weigh g _ l H2), <- tx_sum, <- sum_mult. apply sum_le. intros i.
  specialize (Hg2 i). specialize (H3 i). unfold tx, g in *. destruct (nth_error toks i) as [t|]; [|lia].
  destruct (closing_dec t) as [C|C]; [lia|].
  assert (looks_at l i <= 6) by (apply H3; intros t' X; injection X as <-; exact C). nia.
Qed.
Lemma parse_looks cc chk input r l l' : parse_t fo cc chk input = Done (r, l, l') ->
  length l <= 5 * (length input + 1) /\ length l' <= 6 * length input + 10 /\
  forall toks, tokenize fo cc chk input = Done (Ok toks) -> text_seen toks l' <= 78 * length input + 120.
Proof.
  unfold parse_t. rewrite tokenize_same. destruct (tokenize_t fo cc chk input) as [[[ts|e] l0]| |] eqn:E; try discriminate.
  - apply tokenize_looks in E as (H1 & H2 & H3 & H4).
    assert (length l0 <= 5 * (length input + 1)).
    { pose proof (record_length _ _ _ H2 H1). pose proof (replace_crlf_length input). lia. }
    destruct (parse_tokens_t fo ts) as [[r0 l1]| |] eqn:E1; try discriminate. intros X. injection X as <- <- <-.
    pose proof (text_looks _ _ _ E1). apply tokens_looks in E1 as (G1 & G2 & G3).
    split; [lia|]. split; [lia|]. intros toks X. injection X as <-. lia.
  - apply tokenize_looks in E as (H1 & H2 & _).
    pose proof (record_length _ _ _ H2 H1). pose proof (replace_crlf_length input). intros X. injection X as <- <- <-. cbn [length].
    split; [lia|]. split; [lia|]. discriminate.
Qed.
End Par.

(** ** Closing identifiers are looked at once per open block *)
Section Closers.
Context {F : Type} (fo : FloatOps F) (K : nat).
Definition deep : list (Token F) := PrintSpec.kw "WorldBegin" :: nested K.
Notation st i := (mkPr deep i).
Notation obd := (ob (length deep) (K + 1)).
Lemma deep_length : length deep = K + 2.
Proof. unfold deep, nested. cbn. rewrite app_length, repeat_length. cbn. lia. Qed.
Lemma deep_begin i : 1 <= i <= K -> nth_error deep i = Some (PrintSpec.kw "AttributeBegin").
Proof.
  intros H. destruct i as [|i]; [lia|]. unfold deep, nested. cbn [nth_error].
  rewrite nth_error_app1 by (rewrite repeat_length; lia). apply nth_error_repeat. lia.
Qed.
Lemma deep_end : nth_error deep (K + 1) = Some (PrintSpec.kw "WorldEnd").
Proof.
  replace (K + 1) with (S K) by lia. unfold deep, nested. cbn [nth_error].
  rewrite nth_error_app2 by (rewrite repeat_length; lia). rewrite repeat_length, Nat.sub_diag. reflexivity.
Qed.
Lemma deep_loop fuel : forall ds m i, i + m = K + 1 -> 1 <= i -> m < fuel ->
  obd (st i) (parse_directives_loop_t fo fuel ds) (parse_directives_loop fo fuel ds)
    (fun r s n k => (exists ds', r = Ok ds') /\ s = st (K + 1) /\ m + 1 <= k).
Proof.
  induction fuel as [|fuel IH]; intros ds m i E Hi Hf; [lia|].
  cbn [parse_directives_loop parse_directives_loop_t]. apply ob_tryb, ob_peek; [rewrite deep_length; lia|]. intros k1 K1 K2.
  destruct m as [|m].
  - assert (i = K + 1) as -> by lia. rewrite deep_end. cbn [tok_ty PrintSpec.kw PrintSpec.tk0].
    change (is_closer (s2l "WorldEnd")) with true. cbv iota. apply ob_ret. repeat split; [eauto|lia].
  - rewrite deep_begin by lia. cbn [tok_ty PrintSpec.kw PrintSpec.tk0].
    change (is_closer (s2l "AttributeBegin")) with false. cbv iota. apply ob_tryb.
    unfold parse_directive_body_t, parse_directive_body. apply ob_tryb, ob_pos; [rewrite deep_length; lia|]. intros k2 K3 K4.
    rewrite deep_begin by lia. apply ob_tryb.
    unfold parse_identifier_t, parse_identifier. apply ob_bind, ob_peek; [rewrite deep_length; lia|]. intros k3 K5 K6.
    rewrite deep_begin by lia. cbn [PrintSpec.kw PrintSpec.tk0].
    apply ob_bind, ob_next; [rewrite deep_length; lia|]. intros k4 K7 K8.
    rewrite deep_begin by lia. apply ob_ret.
    repeat match goal with |- ob _ _ _ (if ?c then _ else _) _ _ => let v := eval vm_compute in c in change c with v; cbv iota end.
    apply ob_tryb. eapply ob_weak; [apply (IH [] m (i + 1)); lia|].
    intros r s n k (( ds' & ->) & -> & Hk). apply ob_ret.
    eapply ob_weak; [apply (IH _ 0 (K + 1)); lia|]. intros r s n5 k5 (H1 & H2 & H3). repeat split; auto; lia.
Qed.
Lemma deep_first : nth_error deep 0 = Some (PrintSpec.kw "WorldBegin").
Proof. reflexivity. Qed.
Lemma deep_fuel : exists n, pr_fuel (st 0) = S n.
Proof. now exists (length deep). Qed.
Lemma deep_looks : exists x l, parse_tokens_t fo deep = Done (Ok x, l) /\ K + 1 <= looks_at l (K + 1).
Proof.
  assert (obd (st 0) (parse_tokens_m_t fo) (parse_tokens_m fo) (fun r s n k => (exists x, r = Ok x) /\ K + 1 <= k)) as H.
  { unfold parse_tokens_m_t, parse_tokens_m. apply ob_tryb. unfold parse_predirectives_t, parse_predirectives.
    apply ob_bind, ob_get. destruct deep_fuel as [fuel ->]. cbn [parse_predirectives_loop parse_predirectives_loop_t].
    apply ob_tryb, ob_peek; [rewrite deep_length; lia|]. intros k1 K1 K2. rewrite deep_first. cbn [tok_ty PrintSpec.kw PrintSpec.tk0].
    match goal with |- ob _ _ _ (if ?c then _ else _) _ _ => let v := eval vm_compute in c in change c with v; cbv iota end.
    apply ob_ret. apply ob_tryb. unfold parse_directive_t, parse_directive, parse_directive_body_t, parse_directive_body.
    apply ob_tryb, ob_pos; [rewrite deep_length; lia|]. intros k2 K3 K4. rewrite deep_first.
    apply ob_tryb.
    unfold parse_identifier_t, parse_identifier. apply ob_bind, ob_peek; [rewrite deep_length; lia|]. intros k3 K5 K6.
    rewrite deep_first; cbn [PrintSpec.kw PrintSpec.tk0].
    apply ob_bind, ob_next; [rewrite deep_length; lia|]. intros k4 K7 K8.
    rewrite deep_first; cbn [PrintSpec.kw PrintSpec.tk0]. apply ob_ret.
    repeat match goal with |- ob _ _ _ (if ?c then _ else _) _ _ => let v := eval vm_compute in c in change c with v; cbv iota end.
    apply ob_tryb. unfold parse_directives_t, parse_directives. apply ob_bind, ob_get.
    eapply ob_weak; [apply (deep_loop _ [] K 1); [lia|lia|unfold pr_fuel; cbn [pr_tokens]; rewrite deep_length; lia]|].
    intros r s n k ((ds & ->) & -> & Hk). apply ob_ret. apply ob_ret. split; [eauto|lia]. }
  unfold ob in H. unfold parse_tokens_t. destruct (parse_tokens_m fo (st 0)) as [[r s]| |] eqn:E.
  - destruct H as (d & E1 & _ & (x & ->) & H). exists x, d. rewrite E1. cbn. rewrite app_nil_r. auto.
  - exfalso. destruct (nested_parse fo K) as [ds Hds].
    assert (exists x, parse_tokens fo deep = Done (Ok x)) as (x & Hx).
    { eexists. apply parse_tokens_iff. econstructor; [apply pds_world|]. apply (di_block fo pos0 _ DWorld); [constructor|exact Hds]. }
    unfold parse_tokens in Hx. rewrite E in Hx. discriminate.
  - exfalso. destruct (nested_parse fo K) as [ds Hds].
    assert (exists x, parse_tokens fo deep = Done (Ok x)) as (x & Hx).
    { eexists. apply parse_tokens_iff. econstructor; [apply pds_world|]. apply (di_block fo pos0 _ DWorld); [constructor|exact Hds]. }
    unfold parse_tokens in Hx. rewrite E in Hx. discriminate.
Qed.
End Closers.

(** ** The forms of PropsLooks.v *)
Section Forms.
Context {F : Type} (fo : FloatOps F) (cc : CharClass) (chk : bool).
Lemma tokenize_looks_input input r l : tokenize_t fo cc chk input = Done (r, l) ->
  (forall i, looks_at l i <= 5) /\ Forall (fun i => i <= length input) l /\ length l <= 5 * (length input + 1).
Proof.
  intros E. apply tokenize_looks in E as (H1 & H2 & _). pose proof (replace_crlf_length input).
  split; [exact H1|]. split; [|pose proof (record_length _ _ _ H2 H1); lia].
  eapply Forall_impl; [|exact H2]. cbn. lia.
Qed.
Lemma tokenize_small input ts : tokenize fo cc chk input = Done (Ok ts) ->
  length ts <= length input /\ list_sum (map text ts) <= length input.
Proof.
  rewrite tokenize_same. destruct (tokenize_t fo cc chk input) as [[r l]| |] eqn:E; try discriminate.
  intros X. injection X as ->. now apply tokenize_looks in E as (_ & _ & H).
Qed.
End Forms.
