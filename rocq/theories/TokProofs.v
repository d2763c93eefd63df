(** Proofs about the tokenizer model: it computes exactly the relation of LexSpec. *)
From Verif Require Import Base TokModel LexSpec.
Open Scope mon_scope.

(** ** Positions *)
Lemma until_lf_snoc s c : until_lf (rev (s ++ [c])) = if (c =? c_lf)%N then 0 else S (until_lf (rev s)).
Proof. rewrite rev_app_distr. reflexivity. Qed.

Lemma pos_of_snoc pre c :
  pos_of (pre ++ [c]) = if (c =? c_lf)%N then mkPos (pos_r (pos_of pre) + 1) 1
                        else mkPos (pos_r (pos_of pre)) (pos_c (pos_of pre) + 1).
Proof.
  unfold pos_of, row_of, col_of; cbn [pos_r pos_c].
  rewrite until_lf_snoc, count_occ_app; cbn [count_occ].
  destruct (N.eq_dec c c_lf) as [->|H].
  - rewrite N.eqb_refl. f_equal; lia.
  - apply N.eqb_neq in H; rewrite H.
    f_equal; lia.
Qed.

(** Every state the tokenizer goes through is determined by what has been read and what remains. *)
Definition mk (pre suf : str) : tokenizer :=
  mkTk (pre ++ suf) (List.length pre) (pos_of pre) (pos_of (removelast pre)).

Lemma removelast_snoc {A} (l : list A) x : removelast (l ++ [x]) = l.
Proof. rewrite removelast_app by discriminate. cbn. now rewrite app_nil_r. Qed.

Lemma tk_new_mk input : tk_new input = mk [] (replace_crlf input).
Proof. reflexivity. Qed.

Section Proofs.
Context {F : Type} (fo : FloatOps F) (cc : CharClass).

Lemma is_empty_mk pre suf : tk_is_empty (mk pre suf) = match suf with [] => true | _ => false end.
Proof.
  unfold tk_is_empty, mk; cbn [tk_chars tk_index]. rewrite app_length.
  destruct suf; cbn [List.length]; [apply Nat.leb_le|apply Nat.leb_gt]; lia.
Qed.

Lemma nth_error_mid {A} (pre : list A) c suf : nth_error (pre ++ c :: suf) (List.length pre) = Some c.
Proof. rewrite nth_error_app2 by lia. now rewrite Nat.sub_diag. Qed.

Lemma peek_mk pre c suf : @tk_peek F (mk pre (c :: suf)) = Done (Ok c, mk pre (c :: suf)).
Proof.
  unfold tk_peek. rewrite is_empty_mk. cbn [negb].
  unfold mk at 1 2; cbn [tk_chars tk_index]. now rewrite nth_error_mid.
Qed.
Lemma peek_mk_nil pre : @tk_peek F (mk pre []) = Done (Err EEof, mk pre []).
Proof. unfold tk_peek. now rewrite is_empty_mk. Qed.

Lemma next_mk pre c suf : @tk_next F (mk pre (c :: suf)) = Done (Ok c, mk (pre ++ [c]) suf).
Proof.
  unfold tk_next. rewrite is_empty_mk.
  unfold mk at 1 2; cbn [tk_chars tk_index]. rewrite nth_error_mid.
  unfold mk; cbn [tk_chars tk_index tk_pos tk_prev].
  rewrite removelast_snoc, pos_of_snoc, app_length, <- app_assoc. reflexivity.
Qed.
Lemma next_mk_nil pre : @tk_next F (mk pre []) = Done (Err EEof, mk pre []).
Proof. unfold tk_next. now rewrite is_empty_mk. Qed.

Lemma cur_pos_mk pre suf : cur_pos (mk pre suf) = Done (pos_of pre, mk pre suf).
Proof. reflexivity. Qed.
Lemma cur_prev_mk pre suf : cur_prev (mk pre suf) = Done (pos_of (removelast pre), mk pre suf).
Proof. reflexivity. Qed.

Lemma bind_Done {S A B} (m : M S A) (k : A -> M S B) s a s' : m s = Done (a, s') -> bind m k s = k a s'.
Proof. unfold bind. now intros ->. Qed.
Lemma tryb_Ok {S A B E} (m : M S (result A E)) (k : A -> M S (result B E)) s a s' :
  m s = Done (Ok a, s') -> tryb m k s = k a s'.
Proof. unfold tryb, bind. now intros ->. Qed.
Lemma tryb_Err {S A B E} (m : M S (result A E)) (k : A -> M S (result B E)) s e s' :
  m s = Done (Err e, s') -> tryb m k s = Done (Err e, s').
Proof. unfold tryb, bind. now intros ->. Qed.

End Proofs.

(** Symbolic execution of one primitive step. *)
Ltac tk_step :=
  first
    [ erewrite bind_Done by (first [apply peek_mk | apply peek_mk_nil | apply next_mk | apply next_mk_nil
                                   | apply cur_pos_mk | apply cur_prev_mk | reflexivity])
    | erewrite tryb_Ok by (first [apply peek_mk | apply next_mk | reflexivity])
    | erewrite tryb_Err by (first [apply peek_mk_nil | apply next_mk_nil | reflexivity]) ];
  cbv beta iota.

Section Proofs2.
Context {F : Type} (fo : FloatOps F) (cc : CharClass).

(** ** Comments and white space *)
Lemma skip_comment_lf n body pre suf :
  ~ In c_lf body -> List.length body < n ->
  @skip_comment F n (mk pre (body ++ c_lf :: suf)) = Done (tt, mk (pre ++ body ++ [c_lf]) suf).
Proof.
  revert pre n; induction body as [|c body IH]; intros pre n Hin Hn; (destruct n as [|n]; [cbn in Hn; lia|]).
  - cbn [app skip_comment]. tk_step. rewrite N.eqb_refl. reflexivity.
  - cbn [app skip_comment]. tk_step.
    destruct (N.eqb_spec c c_lf) as [->|Hc]; [exfalso; apply Hin; now left|].
    rewrite IH.
    + do 2 f_equal. rewrite <- app_assoc. reflexivity.
    + intro; apply Hin; now right.
    + cbn in Hn; lia.
Qed.

Lemma skip_comment_eof n body pre :
  ~ In c_lf body -> List.length body < n ->
  @skip_comment F n (mk pre body) = Done (tt, mk (pre ++ body) []).
Proof.
  revert pre n; induction body as [|c body IH]; intros pre n Hin Hn; (destruct n as [|n]; [cbn in Hn; lia|]).
  - cbn [skip_comment]. tk_step. now rewrite app_nil_r.
  - cbn [skip_comment]. tk_step.
    destruct (N.eqb_spec c c_lf) as [->|Hc]; [exfalso; apply Hin; now left|].
    rewrite IH.
    + now rewrite <- app_assoc.
    + intro; apply Hin; now right.
    + cbn in Hn; lia.
Qed.

Lemma split_lf s : (exists body rest, s = body ++ c_lf :: rest /\ ~ In c_lf body) \/ ~ In c_lf s.
Proof.
  induction s as [|c s IH]; [right; intros []|].
  destruct (N.eq_dec c c_lf) as [->|Hc].
  - left; exists [], s. split; [reflexivity|intros []].
  - destruct IH as [(b & r & -> & Hb)|Hs].
    + left; exists (c :: b), r. split; [reflexivity|]. intros [H|H]; congruence.
    + right. intros [H|H]; congruence.
Qed.

Lemma skip_ws_run n ws pre suf :
  Forall (fun c => is_whitespace c = true) ws -> next_is (fun c => is_whitespace c = false) suf ->
  List.length ws < n ->
  @skip_ws F n (mk pre (ws ++ suf)) = Done (Ok tt, mk (pre ++ ws) suf).
Proof.
  revert pre n; induction ws as [|c ws IH]; intros pre n Hf Hs Hn; (destruct n as [|n]; [cbn in Hn; lia|]).
  - cbn [app skip_ws]. rewrite app_nil_r. destruct suf as [|c suf].
    + tk_step. reflexivity.
    + cbn in Hs. tk_step. now rewrite Hs.
  - cbn [app skip_ws]. inversion Hf as [|? ? Hc Hf']; subst. tk_step. rewrite Hc. tk_step.
    rewrite IH; [now rewrite <- app_assoc|assumption|assumption|cbn in Hn; lia].
Qed.

Lemma span_pred (P : char -> bool) s :
  exists a b, s = a ++ b /\ Forall (fun c => P c = true) a /\ next_is (fun c => P c = false) b.
Proof.
  induction s as [|c s IH]; [exists [], []; repeat split; constructor|].
  destruct (P c) eqn:Hc.
  - destruct IH as (a & b & -> & Ha & Hb). exists (c :: a), b. repeat split; auto.
  - exists [], (c :: s). repeat split; auto.
Qed.

(** ** Strings *)
Lemma str_loop_ok n sp body v acc pre suf :
  str_body body v -> List.length body < n ->
  @str_loop F n sp acc (mk pre (body ++ c_quote :: suf))
  = Done (Ok (mkTok sp (TStr (acc ++ v))), mk (pre ++ body ++ [c_quote]) suf).
Proof.
  intros H; revert n acc pre; induction H as [|c s v Hb Hq H IH|s v H IH|c s v Hc H IH];
    intros n acc pre Hn; (destruct n as [|n]; [cbn in Hn; lia|]); cbn [app str_loop].
  - tk_step. cbn [N.eqb Pos.eqb c_quote c_bslash]. now rewrite app_nil_r.
  - tk_step. destruct (N.eqb_spec c c_bslash); [congruence|]. destruct (N.eqb_spec c c_quote); [congruence|].
    rewrite IH by (cbn in Hn; lia). now rewrite <- !app_assoc.
  - tk_step. rewrite N.eqb_refl. tk_step. rewrite N.eqb_refl.
    rewrite IH by (cbn in Hn; lia). now rewrite <- !app_assoc.
  - tk_step. rewrite N.eqb_refl. tk_step. destruct (N.eqb_spec c c_n); [congruence|].
    rewrite IH by (cbn in Hn; lia). now rewrite <- !app_assoc.
Qed.

(** A string body, or no closing quote. *)
Inductive unterminated : str -> Prop :=
| ut_nil : unterminated []
| ut_bs : unterminated [c_bslash]
| ut_plain : forall c s, c <> c_bslash -> c <> c_quote -> unterminated s -> unterminated (c :: s)
| ut_esc : forall c s, unterminated s -> unterminated (c_bslash :: c :: s).

Lemma str_dec_aux k : forall s, List.length s <= k ->
  (exists body v rest, s = body ++ c_quote :: rest /\ str_body body v) \/ unterminated s.
Proof.
  induction k as [|k IH]; intros s Hk.
  - destruct s; [|cbn in Hk; lia]. right; constructor.
  - destruct s as [|c s]; [right; constructor|].
    destruct (N.eq_dec c c_quote) as [->|Hq]; [left; exists [], [], s; split; [reflexivity|constructor]|].
    destruct (N.eq_dec c c_bslash) as [->|Hb].
    + destruct s as [|d s]; [right; constructor|].
      destruct (IH s) as [(b & v & r & -> & Hv)|Hu]; [cbn in Hk; lia| |].
      * left. destruct (N.eq_dec d c_n) as [->|Hn].
        -- exists (c_bslash :: c_n :: b), (c_lf :: v), r. split; [reflexivity|now constructor].
        -- exists (c_bslash :: d :: b), (d :: v), r. split; [reflexivity|now constructor].
      * right. now constructor.
    + destruct (IH s) as [(b & v & r & -> & Hv)|Hu]; [cbn in Hk; lia| |].
      * left. exists (c :: b), (c :: v), r. split; [reflexivity|now constructor].
      * right. now constructor.
Qed.

Lemma str_dec s :
  (exists body v rest, s = body ++ c_quote :: rest /\ str_body body v) \/ unterminated s.
Proof. now apply str_dec_aux with (k := List.length s). Qed.

Lemma str_loop_err n sp acc pre s :
  unterminated s -> List.length s < n ->
  exists m, @str_loop F n sp acc (mk pre s) = Done (Err (EStr m), mk (pre ++ s) []).
Proof.
  intros H; revert n acc pre; induction H as [| |c s Hb Hq H IH|c s H IH];
    intros n acc pre Hn; (destruct n as [|n]; [cbn in Hn; lia|]); cbn [str_loop].
  - tk_step. eexists. tk_step. rewrite app_nil_r. reflexivity.
  - tk_step. rewrite N.eqb_refl. tk_step. eexists. tk_step. reflexivity.
  - tk_step. destruct (N.eqb_spec c c_bslash); [congruence|]. destruct (N.eqb_spec c c_quote); [congruence|].
    destruct (IH n (acc ++ [c]) (pre ++ [c])) as [m Hm]; [cbn in Hn; lia|].
    exists m. rewrite Hm. now rewrite <- app_assoc.
  - tk_step. rewrite N.eqb_refl. tk_step.
    replace (pre ++ c_bslash :: c :: s) with (((pre ++ [c_bslash]) ++ [c]) ++ s) by now rewrite <- !app_assoc.
    destruct (N.eqb_spec c c_n); apply IH; cbn in Hn; lia.
Qed.

(** ** Identifiers *)
Lemma id_loop_ok n t acc pre suf :
  Forall (fun c => is_alphanumeric cc c = true) t -> next_is (fun c => is_alphanumeric cc c = false) suf ->
  List.length t < n ->
  @id_loop F cc n acc (mk pre (t ++ suf)) = Done (Ok (acc ++ t), mk (pre ++ t) suf).
Proof.
  revert pre acc n; induction t as [|c t IH]; intros pre acc n Hf Hs Hn; (destruct n as [|n]; [cbn in Hn; lia|]);
    cbn [app id_loop].
  - rewrite !app_nil_r. destruct suf as [|c suf].
    + tk_step. reflexivity.
    + cbn in Hs. tk_step. now rewrite Hs.
  - inversion Hf as [|? ? Hc Hf']; subst. tk_step. rewrite Hc. tk_step.
    rewrite IH; [now rewrite <- !app_assoc|assumption|assumption|cbn in Hn; lia].
Qed.

(** ** Decimal numerals *)
Lemma digit_val_ok c : is_ascii_digit c = true -> digit_val c = Some (Z.of_N (c - c_0)).
Proof. unfold digit_val. now intros ->. Qed.

Lemma digit_val_range c : is_ascii_digit c = true -> (0 <= Z.of_N (c - c_0) <= 9)%Z.
Proof.
  unfold is_ascii_digit, c_0, c_9. rewrite andb_true_iff, !N.leb_le. lia.
Qed.

Lemma in_range_fits z : in_range z = true <-> fits z.
Proof. unfold in_range, fits, int_min, int_max. rewrite andb_true_iff, !Z.leb_le. lia. Qed.

Definition dec_from (a : Z) (ds : str) : Z := fold_left (fun a c => (10 * a + Z.of_N (c - c_0)%N)%Z) ds a.

Lemma dec_from_ge ds a : all_digits ds -> (0 <= a)%Z -> (a <= dec_from a ds)%Z.
Proof.
  revert a; induction ds as [|c ds IH]; intros a Hd Ha; cbn; [lia|].
  inversion Hd as [|? ? Hc Hd']; subst. apply digit_val_range in Hc.
  specialize (IH (10 * a + Z.of_N (c - c_0))%Z Hd'). unfold dec_from in IH. lia.
Qed.

Lemma dec_from_snoc ds c a : dec_from a (ds ++ [c]) = (10 * dec_from a ds + Z.of_N (c - c_0))%Z.
Proof. unfold dec_from. now rewrite fold_left_app. Qed.

Lemma parse_int_loop_ok neg ds a :
  all_digits ds -> (0 <= a)%Z -> fits (signed neg (dec_from a ds)) ->
  @parse_int_loop F (if neg then -1 else 1)%Z ds (signed neg a) = Ok (signed neg (dec_from a ds)).
Proof.
  revert a; induction ds as [|c ds IH]; intros a Hd Ha Hf; cbn [parse_int_loop]; [reflexivity|].
  inversion Hd as [|? ? Hc Hd']; subst. rewrite digit_val_ok by assumption.
  pose proof (digit_val_range _ Hc) as Hr.
  replace (signed neg a * 10 + (if neg then -1 else 1) * Z.of_N (c - c_0))%Z
    with (signed neg (10 * a + Z.of_N (c - c_0))) by (destruct neg; cbn [signed]; cbv iota; lia).
  assert (Hin : in_range (signed neg (10 * a + Z.of_N (c - c_0))) = true).
  { apply in_range_fits. cbn in Hf. fold (dec_from (10 * a + Z.of_N (c - c_0)) ds) in Hf.
    pose proof (dec_from_ge ds (10 * a + Z.of_N (c - c_0))%Z Hd').
    unfold fits in *. destruct neg; cbn [signed] in *; cbv iota in *; lia. }
  rewrite Hin. rewrite IH; [reflexivity|assumption|lia|exact Hf].
Qed.

Lemma parse_int_loop_inv neg ds a v :
  (0 <= a)%Z -> fits (signed neg a) ->
  @parse_int_loop F (if neg then -1 else 1)%Z ds (signed neg a) = Ok v ->
  all_digits ds /\ v = signed neg (dec_from a ds) /\ fits v.
Proof.
  revert a; induction ds as [|c ds IH]; intros a Ha Hfa; cbn [parse_int_loop].
  - intros [= <-]. repeat split; [constructor|apply Hfa|apply Hfa].
  - unfold digit_val. destruct (is_ascii_digit c) eqn:Hc; [|discriminate].
    pose proof (digit_val_range _ Hc) as Hr.
    replace (signed neg a * 10 + (if neg then -1 else 1) * Z.of_N (c - c_0))%Z
      with (signed neg (10 * a + Z.of_N (c - c_0))) by (destruct neg; cbn [signed]; cbv iota; lia).
    destruct (in_range _) eqn:Hin; [|discriminate]. apply in_range_fits in Hin.
    intros H. apply IH in H; [|lia|assumption]. destruct H as (Hd & -> & Hf).
    repeat split; [now constructor|apply Hf|apply Hf].
Qed.

Lemma fits_0 : fits 0. Proof. unfold fits; lia. Qed.

Lemma is_digit_not c : is_ascii_digit c = true -> c <> c_minus /\ c <> c_plus /\ c <> c_dot /\ c <> c_e.
Proof.
  unfold is_ascii_digit, c_0, c_9, c_minus, c_plus, c_dot, c_e. rewrite andb_true_iff, !N.leb_le. lia.
Qed.

Definition signed_chars (neg : bool) (body : str) : str := if neg then c_minus :: body else body.

Lemma parse_isize_unsigned body :
  next_is (fun c => c <> c_minus /\ c <> c_plus) body -> body <> [] ->
  @parse_isize F body = parse_int_loop 1 body 0.
Proof.
  destruct body as [|c t]; [congruence|]. cbn [next_is]. intros [H1 H2] _. cbn [parse_isize].
  apply N.eqb_neq in H1, H2. rewrite H1, H2. now destruct t.
Qed.

Lemma parse_isize_ok neg body v : int_num neg body v -> @parse_isize F (signed_chars neg body) = Ok v.
Proof.
  intros (Hne & Hd & -> & Hf). destruct neg; cbn [signed_chars].
  - destruct body as [|c t]; [congruence|]. cbn [parse_isize]. rewrite N.eqb_refl.
    apply (parse_int_loop_ok true (c :: t) 0); [assumption|lia|exact Hf].
  - rewrite parse_isize_unsigned; [|destruct body; [exact I|]|assumption].
    + apply (parse_int_loop_ok false body 0); [assumption|lia|exact Hf].
    + inversion Hd as [|? ? Hc ?]; subst. apply is_digit_not in Hc. cbn. tauto.
Qed.

Lemma parse_isize_inv neg body v :
  next_is (fun c => c <> c_minus /\ c <> c_plus) body ->
  @parse_isize F (signed_chars neg body) = Ok v -> int_num neg body v.
Proof.
  intros Hs H. destruct neg; cbn [signed_chars] in H.
  - destruct body as [|c t]; [cbn in H; discriminate|].
    cbn [parse_isize] in H. rewrite N.eqb_refl in H.
    apply (parse_int_loop_inv true (c :: t) 0 v) in H; [|lia|apply fits_0].
    destruct H as (Hd & Hv & Hf). repeat split; try apply Hf; [discriminate|assumption|exact Hv].
  - destruct body as [|c t]; [cbn in H; discriminate|].
    rewrite parse_isize_unsigned in H; [|assumption|discriminate].
    apply (parse_int_loop_inv false (c :: t) 0 v) in H; [|lia|apply fits_0].
    destruct H as (Hd & Hv & Hf). repeat split; try apply Hf; [discriminate|assumption|exact Hv].
Qed.

Lemma dec_val_nonneg ds : all_digits ds -> (0 <= dec_val ds)%Z.
Proof. intros H. pose proof (dec_from_ge ds 0 H). unfold dec_from in *. unfold dec_val. lia. Qed.

Lemma dec_from_nonneg ds a : all_digits ds -> (0 <= a)%Z -> (0 <= dec_from a ds)%Z.
Proof. intros H Ha. pose proof (dec_from_ge ds a H Ha). lia. Qed.

Lemma scan_dec_digits ds m nd k dot :
  all_digits ds ->
  scan_dec ds m nd k dot = Some (Z.to_N (dec_from (Z.of_N m) ds), List.length ds + nd,
                                 (if dot then List.length ds else 0) + k).
Proof.
  revert m nd k; induction ds as [|c ds IH]; intros m nd k Hd.
  - cbn [scan_dec dec_from fold_left List.length]. rewrite N2Z.id. now destruct dot.
  - inversion Hd as [|? ? Hc Hd']; subst. cbn [scan_dec]. rewrite Hc, IH by assumption.
    pose proof (digit_val_range _ Hc). f_equal. f_equal.
    + f_equal.
      * f_equal. cbn [dec_from fold_left]. unfold dec_from. f_equal. lia.
      * cbn [List.length]. lia.
    + destruct dot; cbn [List.length]; lia.
Qed.

Lemma scan_dec_app a b m nd k :
  all_digits a ->
  scan_dec (a ++ c_dot :: b) m nd k false
  = scan_dec b (Z.to_N (dec_from (Z.of_N m) a)) (List.length a + nd) k true.
Proof.
  revert m nd; induction a as [|c a IH]; intros m nd Ha.
  - cbn [app scan_dec dec_from fold_left List.length]. rewrite N2Z.id. reflexivity.
  - inversion Ha as [|? ? Hc Ha']; subst. cbn [app scan_dec]. rewrite Hc, IH by assumption.
    pose proof (digit_val_range _ Hc). f_equal.
    + f_equal. cbn [dec_from fold_left]. unfold dec_from. f_equal. lia.
    + cbn [List.length]. lia.
Qed.

Lemma dec_from_app a b x : dec_from x (a ++ b) = dec_from (dec_from x a) b.
Proof. unfold dec_from. apply fold_left_app. Qed.

Lemma scan_dec_num body m k : dec_num body m k -> exists nd, scan_dec body 0 0 0 false = Some (m, S nd, k).
Proof.
  intros [a Hne Ha|a b Hne Ha Hb].
  - rewrite scan_dec_digits by assumption. destruct a as [|c a]; [congruence|].
    cbn [List.length]. exists (List.length a). now rewrite !Nat.add_0_r.
  - rewrite scan_dec_app by assumption. rewrite scan_dec_digits by assumption.
    rewrite Z2N.id by (apply dec_from_nonneg; [assumption|lia]).
    rewrite <- dec_from_app.
    assert (Hl : List.length (a ++ b) <> 0) by (destruct (a ++ b); [congruence|cbn; lia]).
    rewrite app_length in Hl. exists (List.length a + List.length b - 1).
    replace (length b + (length a + 0)) with (S (length a + length b - 1)) by lia.
    now rewrite Nat.add_0_r.
Qed.

Lemma scan_dec_true_inv body m nd k r : scan_dec body m nd k true = Some r -> all_digits body.
Proof.
  revert m nd k; induction body as [|c t IH]; intros m nd k; cbn [scan_dec]; [intros _; constructor|].
  destruct (is_ascii_digit c) eqn:Hc; [|destruct (c =? c_dot)%N; discriminate].
  intros H. constructor; [assumption|exact (IH _ _ _ H)].
Qed.

Lemma scan_dec_false_inv body m nd k r : scan_dec body m nd k false = Some r ->
  all_digits body \/ exists a b, body = a ++ c_dot :: b /\ all_digits a /\ all_digits b.
Proof.
  revert m nd k; induction body as [|c t IH]; intros m nd k; cbn [scan_dec]; [intros _; left; constructor|].
  destruct (is_ascii_digit c) eqn:Hc.
  - intros H. apply IH in H. destruct H as [H|(a & b & -> & Ha & Hb)].
    + left. now constructor.
    + right. exists (c :: a), b. repeat split; [now constructor|assumption].
  - destruct (N.eqb_spec c c_dot) as [->|]; [|discriminate]. intros H.
    right. exists [], t. repeat split; [constructor|]. eapply scan_dec_true_inv; eauto.
Qed.

Lemma scan_dec_inv body m nd k : scan_dec body 0 0 0 false = Some (m, S nd, k) -> dec_num body m k.
Proof.
  intros H. pose proof (scan_dec_false_inv _ _ _ _ _ H) as [Hd|(a & b & -> & Ha & Hb)].
  - rewrite scan_dec_digits in H by assumption. injection H as <- Hl <-.
    rewrite ?Nat.add_0_r. apply dn_int; [|assumption]. intros ->. cbn in Hl. lia.
  - rewrite scan_dec_app, scan_dec_digits in H by assumption.
    rewrite Z2N.id in H by (apply dec_from_nonneg; [assumption|lia]).
    rewrite <- dec_from_app in H. injection H as <- Hl <-.
    rewrite ?Nat.add_0_r. apply dn_dot; [|assumption|assumption].
    intros E. apply app_eq_nil in E as [-> ->]. cbn in Hl. lia.
Qed.

Lemma parse_float_ok neg body m k :
  dec_num body m k -> parse_float_str fo (signed_chars neg body) = Ok (f_dec fo neg m k).
Proof.
  intros H. pose proof (scan_dec_num _ _ _ H) as [nd Hs]. unfold parse_float_str.
  destruct neg; cbn [signed_chars].
  - rewrite N.eqb_refl, Hs. reflexivity.
  - destruct body as [|c t]; [cbn in Hs; discriminate|].
    destruct (N.eqb_spec c c_minus) as [->|]; [cbn in Hs; discriminate|].
    destruct (N.eqb_spec c c_plus) as [->|]; [cbn in Hs; discriminate|].
    now rewrite Hs.
Qed.

Lemma parse_float_inv neg body f :
  next_is (fun c => c <> c_minus /\ c <> c_plus) body ->
  parse_float_str fo (signed_chars neg body) = Ok f ->
  exists m k, dec_num body m k /\ f = f_dec fo neg m k.
Proof.
  intros Hn H. unfold parse_float_str in H. destruct neg; cbn [signed_chars] in H.
  - rewrite N.eqb_refl in H.
    destruct (scan_dec body 0 0 0 false) as [[[m [|nd]] k]|] eqn:Hs; try discriminate.
    injection H as <-. exists m, k. split; [eapply scan_dec_inv; eauto|reflexivity].
  - destruct body as [|c t]; [discriminate|]. cbn in Hn. destruct Hn as [H1 H2].
    apply N.eqb_neq in H1, H2. rewrite H1, H2 in H.
    destruct (scan_dec (c :: t) 0 0 0 false) as [[[m [|nd]] k]|] eqn:Hs; try discriminate.
    injection H as <-. exists m, k. split; [eapply scan_dec_inv; eauto|reflexivity].
Qed.

(** Errors of [str::parse] are messages, never [Eof]. *)
Lemma parse_int_loop_err s sgn a e : @parse_int_loop F sgn s a = Err e -> e <> EEof.
Proof.
  revert a; induction s as [|c t IH]; intros a; cbn [parse_int_loop]; [discriminate|].
  destruct (digit_val c); [|intros [= <-]; discriminate].
  destruct (in_range _); [apply IH|intros [= <-]; discriminate].
Qed.
Lemma parse_isize_err s e : @parse_isize F s = Err e -> e <> EEof.
Proof.
  unfold parse_isize. destruct s as [|c [|d t]].
  - intros [= <-]; discriminate.
  - destruct (_ || _)%bool; [intros [= <-]; discriminate|apply parse_int_loop_err].
  - destruct (_ =? _)%N; [apply parse_int_loop_err|]. destruct (_ =? _)%N; apply parse_int_loop_err.
Qed.
Lemma parse_float_err s e : parse_float_str fo s = Err e -> e <> EEof.
Proof.
  unfold parse_float_str. destruct (match s with [] => _ | _ => _ end) as [neg body].
  destruct s; [intros [= <-]; discriminate|].
  destruct (scan_dec _ _ _ _ _) as [[[m [|nd]] k]|]; intros H; try discriminate; injection H as <-; discriminate.
Qed.

End Proofs2.
