(** How often the tokenizer looks at a character. *)
From Verif Require Import Base TokModel TraceModel TraceCore LooksSpec.
Open Scope mon_scope.

Section Tok.
Context {F : Type} (fo : FloatOps F) (cc : CharClass) (chk : bool) (cs : list N) (i0 : nat).
Notation TM A := (M tokenizer (result A (error F))).
Notation TT A := (M (tokenizer * list nat) (result A (error F))).
Notation top := (length cs).
Notation obt := (ob top i0).

Definition at_ (s : tokenizer) (a : nat) : Prop := tk_chars s = cs /\ tk_index s = a /\ a <= top.
Definition fin {A} (P : A -> nat -> nat -> nat -> Prop) : A -> tokenizer -> nat -> nat -> Prop :=
  fun r s n k => exists b, at_ s b /\ P r b n k.
Lemma ob_done {A} (P : A -> nat -> nat -> nat -> Prop) s a r n k : at_ s a -> P r a n k -> fin P r s n k.
Proof. intros L H. exists a. auto. Qed.

Lemma ob_peek s a (Q : result N (error F) -> tokenizer -> nat -> nat -> Prop) : at_ s a ->
  (forall k, (a = i0 -> k = 1) -> (a <> i0 -> k = 0) ->
    match nth_error cs a with Some c => a < top -> Q (Ok c) s 1 k | None => Q (Err EEof) s 1 k end) ->
  obt s tk_peek_t tk_peek Q.
Proof.
  intros (E1 & E2 & L) H. subst a. unfold tk_peek_t. destruct (nth_error cs (tk_index s)) as [t|] eqn:E.
  - assert (tk_index s < top) by (apply nth_error_Some; congruence).
    eapply ob_look; [|exact L|intros k K1 K2; exact (H k K1 K2 H0)]. unfold tk_peek, tk_is_empty. rewrite E1, E.
    now destruct (Nat.leb_spec top (tk_index s)); try lia.
  - eapply ob_look; [|exact L|exact H]. unfold tk_peek, tk_is_empty. rewrite E1.
    apply nth_error_None in E. now destruct (Nat.leb_spec top (tk_index s)); try lia.
Qed.
Lemma ob_next s a (Q : result N (error F) -> tokenizer -> nat -> nat -> Prop) : at_ s a ->
  (forall k, (a = i0 -> k = 1) -> (a <> i0 -> k = 0) ->
    match nth_error cs a with Some c => forall s', at_ s' (a + 1) -> Q (Ok c) s' 1 k | None => a = top -> Q (Err EEof) s 1 k end) ->
  obt s tk_next_t tk_next Q.
Proof.
  intros (E1 & E2 & L) H. subst a. unfold tk_next_t. destruct (nth_error cs (tk_index s)) as [t|] eqn:E.
  - assert (tk_index s < top) by (apply nth_error_Some; congruence).
    eapply ob_look; [|exact L|intros k K1 K2; apply (H k K1 K2)]. 
    + unfold tk_next, tk_is_empty. rewrite E1, E. destruct (Nat.leb_spec top (tk_index s)); try lia. reflexivity.
    + repeat split; cbn; auto. lia.
  - eapply ob_look; [|exact L|intros k K1 K2; apply (H k K1 K2)].
    + unfold tk_next, tk_is_empty. rewrite E1. apply nth_error_None in E. now destruct (Nat.leb_spec top (tk_index s)); try lia.
    + apply nth_error_None in E. lia.
Qed.
Lemma ob_cur s (Q : Pos -> tokenizer -> nat -> nat -> Prop) : (forall p, Q p s 0 0) -> obt s cur_pos_t cur_pos Q.
Proof. intros H. apply ob_unseen. intros p s' E. injection E as <- <-. apply H. Qed.
Lemma ob_prev s (Q : Pos -> tokenizer -> nat -> nat -> Prop) : (forall p, Q p s 0 0) -> obt s cur_prev_t cur_prev Q.
Proof. intros H. apply ob_unseen. intros p s' E. injection E as <- <-. apply H. Qed.
Lemma ob_get s (Q : tokenizer -> tokenizer -> nat -> nat -> Prop) : Q s s 0 0 -> obt s (unseen get) get Q.
Proof. intros H. apply ob_unseen. intros a s' E. injection E as <- <-. exact H. Qed.

Lemma finish_state p l b s r s' : num_finish fo p l b s = Done (r, s') -> s' = s /\ match r with Ok t => l <> [] /\ text t = 0 | Err _ => True end.
Proof.
  unfold num_finish, tryb, bind, ret, cur_pos, get. destruct l as [|c l]; cbn [ret].
  - intros E. now injection E as <- <-.
  - destruct b; [destruct (parse_float_str _ _)|destruct (parse_isize _)]; intros E; injection E as <- <-; split; auto; split; (discriminate || reflexivity).
Qed.
Lemma exponent_state p l b ex s r s' : num_exponent fo chk p l b ex s = Done (r, s') -> s' = s /\ match r with Ok t => text t = 0 | Err _ => True end.
Proof.
  unfold num_exponent, tryb, bind, ret, lift.
  destruct ex; try (intros E; now injection E as <- <-).
  - destruct (_ && _)%bool.
    + destruct (parse_isize _); [|intros E; now injection E as <- <-].
      destruct (isize_pow10 _ _); try discriminate. destruct (isize_mul _ _ _); try discriminate. intros E; now injection E as <- <-.
    + destruct (parse_float_str _ _); intros E; now injection E as <- <-.
  - destruct (parse_float_str _ _); intros E; now injection E as <- <-.
Qed.

(** One step of a proof. *)
Ltac ar := repeat split; intros; repeat match goal with H : _ /\ _ |- _ => destruct H end; subst; try lia.
Ltac bd := match goal with H : at_ _ ?a |- _ => lazymatch goal with _ : a <= top |- _ => fail | _ => assert (a <= top) by apply H end end.
Ltac peek := apply ob_bind; eapply ob_peek; [eassumption|]; let k := fresh "k" in intros k ? ?;
  match goal with |- match nth_error cs ?a with _ => _ end => let c := fresh "c" in destruct (nth_error cs a) as [c|] eqn:?; [intros ?|] end.
Ltac next := first [apply ob_bind | apply ob_tryb]; eapply ob_next; [eassumption|]; let k := fresh "k" in intros k ? ?;
  match goal with
  | E : nth_error cs ?a = Some _ |- match nth_error cs ?a with _ => _ end => rewrite E
  | |- match nth_error cs ?a with _ => _ end => let c := fresh "c" in destruct (nth_error cs a) as [c|] eqn:?
  end; [let s := fresh "s" in intros s ?|..].
Ltac fin := apply ob_ret; eapply ob_done; [eassumption|].
Ltac cur := apply ob_bind; first [apply ob_cur | apply ob_prev]; intros ?.

Definition num_post (a : nat) (r : result (Token F) (error F)) (b n k : nat) : Prop :=
  (i0 < a -> k = 0) /\ (i0 = a -> k <= 2) /\ k <= 3 /\ a <= b /\
  match r with Ok t => text t = 0 /\ (i0 = b -> k <= 1) /\ (b < i0 -> k = 0) | Err _ => True end.
Definition prel_post (a : nat) (r : result (Token F) (error F)) (b n k : nat) : Prop :=
  (i0 < a -> k = 0) /\ k <= 3 /\ a <= b /\
  match r with Ok t => text t = 0 /\ a < b /\ (i0 = b -> k <= 1) /\ (b < i0 -> k = 0) | Err _ => True end.
Lemma prelude_ob loopc loop :
  (forall p l f s a, at_ s a -> obt s (loopc p l f) (loop p l f)
     (fin (fun r b n k => num_post a r b n k /\ match r with Ok _ => l <> [] \/ a < b | Err _ => True end))) ->
  forall s a, at_ s a -> obt s (num_prelude_t loopc) (num_prelude loop) (fin (prel_post a)).
Proof.
  intros HL s a L. unfold num_prelude_t, num_prelude. cur. bd. peek.
  - apply ob_bind. destruct (c =? c_minus)%N; [|destruct (c =? c_plus)%N].
    + next. apply ob_ret. eapply ob_weak; [eapply HL; eassumption|]. intros r s1 n1 k1 (b & Hb & (J0 & J1 & J2 & J3 & J4) & J5).
      eapply ob_done; [exact Hb|]. unfold prel_post. destruct r; ar.
    + next. apply ob_ret. eapply ob_weak; [eapply HL; eassumption|]. intros r s1 n1 k1 (b & Hb & (J0 & J1 & J2 & J3 & J4) & J5).
      eapply ob_done; [exact Hb|]. unfold prel_post. destruct r; ar.
    + apply ob_ret. eapply ob_weak; [eapply HL; eassumption|]. intros r s1 n1 k1 (b & Hb & (J0 & J1 & J2 & J3 & J4) & J5).
      eapply ob_done; [exact Hb|]. unfold prel_post. destruct r; [destruct J5 as [J5|J5]; [easy|]|]; ar.
  - apply ob_bind, ob_ret. eapply ob_weak; [eapply HL; eassumption|]. intros r s1 n1 k1 (b & Hb & (J0 & J1 & J2 & J3 & J4) & J5).
    eapply ob_done; [exact Hb|]. unfold prel_post. destruct r; [destruct J5 as [J5|J5]; [easy|]|]; ar.
Qed.
Lemma num_ob fuel : forall p l f s a, at_ s a -> obt s (num_loop_t fo cc chk fuel p l f) (num_loop fo cc chk fuel p l f)
     (fin (fun r b n k => num_post a r b n k /\ match r with Ok _ => l <> [] \/ a < b | Err _ => True end)).
Proof.
  induction fuel as [|fuel IH]; intros p l f s a L; [apply ob_fuel|].
  assert (Hfin : forall k, (a = i0 -> k = 1) -> (a <> i0 -> k = 0) -> obt s (unseen (num_finish fo p l f)) (num_finish fo p l f)
    (fun r s n1 k1 => fin (fun r b n k => num_post a r b n k /\ match r with Ok _ => l <> [] \/ a < b | Err _ => True end) r s (1 + n1) (k + k1))).
  { intros k K1 K2. apply ob_unseen. intros r s' E. apply finish_state in E as (-> & E). eapply ob_done; [exact L|]. unfold num_post. destruct r; ar; now left. }
  cbn [num_loop num_loop_t]. bd. peek; [|apply Hfin; auto].
  destruct (is_numeric cc c).
  { next. eapply ob_weak; [eapply IH; eassumption|]. intros r s1 n1 k1 (b & Hb & (J0 & J1 & J2 & J3 & J4) & J5).
    eapply ob_done; [exact Hb|]. unfold num_post. destruct r; ar. }
  destruct (c =? c_dot)%N.
  { destruct f; [cur; fin; unfold num_post; ar|].
    next. eapply ob_weak; [eapply IH; eassumption|]. intros r s1 n1 k1 (b & Hb & (J0 & J1 & J2 & J3 & J4) & J5).
    eapply ob_done; [exact Hb|]. unfold num_post. destruct r; ar. }
  destruct (c =? c_e)%N; [|apply Hfin; auto].
  destruct l as [|x l]; [cur; fin; unfold num_post; ar|].
  next. apply ob_tryb. eapply ob_weak; [apply prelude_ob; [|eassumption]|].
  - intros; now apply IH.
  - intros r s1 n1 k1 (b & Hb & J0 & J1 & J2 & J3). destruct r as [t|e].
    + apply ob_unseen. intros r s' E. apply exponent_state in E as (-> & E). eapply ob_done; [exact Hb|]. unfold num_post. destruct r; ar.
    + eapply ob_done; [exact Hb|]. unfold num_post. ar.
Qed.

Definition str_post (m a : nat) (r : result (Token F) (error F)) (b n k : nat) : Prop :=
  (i0 < a -> k = 0) /\ k <= 1 /\ a <= b /\ match r with Ok t => (b <= i0 -> k = 0) /\ text t <= m + (b - a) | Err _ => True end.
Lemma str_ob fuel : forall p l s a, at_ s a -> obt s (str_loop_t fuel p l) (str_loop fuel p l) (fin (str_post (length l) a)).
Proof.
  induction fuel as [|fuel IH]; intros p l s a L; [apply ob_fuel|].
  cbn [str_loop str_loop_t]. bd. next; [|intros ?; cur; fin; unfold str_post; ar].
  destruct (c =? c_bslash)%N.
  - next; [|intros ?; cur; fin; unfold str_post; ar].
    assert (forall ch, obt s1 (str_loop_t fuel p (l ++ [ch])) (str_loop fuel p (l ++ [ch]))
      (fun r s n2 k2 => fin (str_post (length l) a) r s (1 + (1 + n2)) (k + (k0 + k2)))) as X.
    { intros ch. eapply ob_weak; [eapply IH; eassumption|]. intros r s2 n1 k1 (b & Hb & J0 & J1 & J2 & J3).
      rewrite app_length in J3. cbn [length] in J3. eapply ob_done; [exact Hb|]. unfold str_post. destruct r; ar. }
    destruct (_ =? c_n)%N; apply X.
  - destruct (c =? c_quote)%N; [fin; unfold str_post, text; cbn [tok_ty]; ar|].
    eapply ob_weak; [eapply IH; eassumption|]. intros r s2 n1 k1 (b & Hb & J0 & J1 & J2 & J3).
    rewrite app_length in J3. cbn [length] in J3. eapply ob_done; [exact Hb|]. unfold str_post. destruct r; ar.
Qed.
Definition one_post (m a : nat) (r : result (Token F) (error F)) (b n k : nat) : Prop :=
  (i0 < a -> k = 0) /\ (i0 = a -> k <= m) /\ k <= 5 /\ a <= b /\
  match r with Ok t => text t <= b - a /\ a < b /\ (i0 = b -> k <= 1) /\ (b < i0 -> k = 0) | Err _ => True end.
Lemma tok_str_ob fuel s a : at_ s a -> a < top -> obt s (tokenize_str_t fuel) (tokenize_str fuel) (fin (one_post 3 a)).
Proof.
  intros L La. unfold tokenize_str_t, tokenize_str. cur. next; [|intros ?; cur; fin; unfold one_post; ar].
  eapply ob_weak; [eapply str_ob; eassumption|]. intros r s2 n1 k1 (b & Hb & J0 & J1 & J2 & J3). cbn [length] in J3.
  eapply ob_done; [exact Hb|]. unfold one_post. destruct r; ar.
Qed.
Lemma id_ob fuel : forall l s a, at_ s a -> obt s (id_loop_t cc fuel l) (@id_loop F cc fuel l)
  (fin (fun r b n k => (i0 < a -> k = 0) /\ k <= 2 /\ a <= b /\ match r with Ok l' => length l' <= length l + (b - a) /\ (i0 = b -> k <= 1) /\ (b < i0 -> k = 0) | Err _ => True end)).
Proof.
  induction fuel as [|fuel IH]; intros l s a L; [apply ob_fuel|].
  cbn [id_loop id_loop_t]. bd. peek; [|fin; ar].
  destruct (is_alphanumeric cc c); [|fin; ar].
  next. eapply ob_weak; [eapply IH; eassumption|]. intros r s2 n1 k1 (b & Hb & J0 & J1 & J2 & J3).
  rewrite app_length in J3. cbn [length] in J3. eapply ob_done; [exact Hb|]. destruct r; ar.
Qed.
Lemma tok_id_ob fuel s a : at_ s a -> a < top -> obt s (tokenize_id_t cc fuel) (@tokenize_id F cc fuel) (fin (one_post 3 a)).
Proof.
  intros L La. unfold tokenize_id_t, tokenize_id. cur. next; [|intros ?; lia].
  apply ob_tryb. eapply ob_weak; [eapply id_ob; eassumption|]. intros r s2 n1 k1 (b & Hb & J0 & J1 & J2 & J3).
  cbn [length] in J3. destruct r as [[|x l]|e].
  - cur. fin. unfold one_post. ar.
  - fin. unfold one_post, text. cbn [tok_ty]. ar.
  - eapply ob_done; [exact Hb|]. unfold one_post. ar.
Qed.
Lemma comment_ob fuel : forall s a, at_ s a -> obt s (@skip_comment_t F fuel) (@skip_comment F fuel)
  (fin (fun _ b n k => (i0 < a -> k = 0) /\ k <= 1 /\ a <= b /\ (b < i0 -> k = 0) /\ (a < top -> a < b))).
Proof.
  induction fuel as [|fuel IH]; intros s a L; [apply ob_fuel|].
  cbn [skip_comment skip_comment_t]. bd. next; [|intros ?; fin; ar].
  destruct (c =? c_lf)%N; [fin; ar|].
  eapply ob_weak; [eapply IH; eassumption|]. intros r s2 n1 k1 (b & Hb & J0 & J1 & J2 & J3 & J4).
  eapply ob_done; [exact Hb|]. ar.
Qed.
Lemma ws_ob fuel : forall s a, at_ s a -> obt s (skip_ws_t fuel) (@skip_ws F fuel)
  (fin (fun r b n k => (i0 < a -> k = 0) /\ k <= 2 /\ a <= b /\ (i0 = b -> k <= 1) /\ (b < i0 -> k = 0) /\
    (forall c, nth_error cs a = Some c -> is_whitespace c = true -> a < b))).
Proof.
  induction fuel as [|fuel IH]; intros s a L; [apply ob_fuel|].
  cbn [skip_ws skip_ws_t]. bd. peek; [|fin; ar; congruence].
  destruct (is_whitespace c) eqn:W; [|fin; ar; congruence].
  next. eapply ob_weak; [eapply IH; eassumption|]. intros r s2 n1 k1 (b & Hb & J0 & J1 & J2 & J3 & J4 & J5).
  eapply ob_done; [exact Hb|]. ar.
Qed.
Lemma one_ob fuel : forall s a, at_ s a -> obt s (tokenize_one_t fo cc chk fuel) (tokenize_one fo cc chk fuel) (fin (one_post 4 a)).
Proof.
  induction fuel as [|fuel IH]; intros s a L; [apply ob_fuel|].
  cbn [tokenize_one tokenize_one_t]. bd. peek; [|fin; unfold one_post; ar].
  destruct (c =? c_hash)%N.
  { apply ob_bind. eapply ob_weak; [eapply comment_ob; eassumption|]. intros r s2 n1 k1 (b & Hb & J0 & J1 & J2 & J3 & J4).
    eapply ob_weak; [eapply IH; eassumption|]. intros r' s3 n2 k2 (b2 & Hb2 & G0 & G1 & G2 & G3 & G4).
    eapply ob_done; [exact Hb2|]. unfold one_post. destruct r'; ar. }
  destruct (c =? c_quote)%N.
  { eapply ob_weak; [eapply tok_str_ob; eassumption|]. intros r' s3 n2 k2 (b2 & Hb2 & G0 & G1 & G2 & G3 & G4).
    eapply ob_done; [exact Hb2|]. unfold one_post. destruct r'; ar. }
  destruct (c =? c_lbrack)%N; [cur; next; fin; unfold one_post, text; cbn [tok_ty]; ar|].
  destruct (c =? c_rbrack)%N; [cur; next; fin; unfold one_post, text; cbn [tok_ty]; ar|].
  destruct (starts_num cc c).
  { unfold tokenize_num_t, tokenize_num. eapply ob_weak; [apply prelude_ob; [intros; now apply num_ob|eassumption]|].
    intros r' s3 n2 k2 (b2 & Hb2 & G0 & G1 & G2 & G3). eapply ob_done; [exact Hb2|]. unfold one_post. destruct r'; ar. }
  destruct (is_whitespace c) eqn:W.
  { apply ob_tryb. eapply ob_weak; [eapply ws_ob; eassumption|]. intros r s2 n1 k1 (b & Hb & J0 & J1 & J2 & J3 & J4 & J5).
    assert (a < b) by (eapply J5; eauto). destruct r as [u|e]; [|eapply ob_done; [exact Hb|]; unfold one_post; ar].
    eapply ob_weak; [eapply IH; eassumption|]. intros r' s3 n2 k2 (b2 & Hb2 & G0 & G1 & G2 & G3 & G4).
    eapply ob_done; [exact Hb2|]. unfold one_post. destruct r'; ar. }
  destruct (is_alphabetic cc c); [|cur; fin; unfold one_post; ar].
  eapply ob_weak; [eapply tok_id_ob; eassumption|]. intros r' s3 n2 k2 (b2 & Hb2 & G0 & G1 & G2 & G3 & G4).
  eapply ob_done; [exact Hb2|]. unfold one_post. destruct r'; ar.
Qed.
Lemma loop_ob fuel : forall ts s a, at_ s a -> obt s (tokenize_loop_t fo cc chk fuel ts) (tokenize_loop fo cc chk fuel ts)
  (fin (fun r b n k => (i0 < a -> k = 0) /\ (i0 = a -> k <= 4) /\ k <= 5 /\ a <= b /\
     match r with Ok ts' => length ts' <= length ts + (b - a) /\ list_sum (map text ts') <= list_sum (map text ts) + (b - a) | Err _ => True end)).
Proof.
  induction fuel as [|fuel IH]; intros ts s a L; [apply ob_fuel|].
  cbn [tokenize_loop tokenize_loop_t]. bd. apply ob_bind, ob_get. destruct (negb _); [|fin; ar].
  apply ob_bind. eapply ob_weak; [eapply one_ob; eassumption|]. intros r s2 n1 k1 (b & Hb & G0 & G1 & G2 & G3 & G4).
  destruct r as [t|[m|]]; [|fin; ar..].
  eapply ob_weak; [eapply IH; eassumption|]. intros r' s3 n2 k2 (b2 & Hb2 & J0 & J1 & J2 & J3 & J4).
  rewrite app_length, map_app, list_sum_app in J4. cbn [length map list_sum fold_right] in J4.
  eapply ob_done; [exact Hb2|]. destruct r'; ar.
Qed.
End Tok.
