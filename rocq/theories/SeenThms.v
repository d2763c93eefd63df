(** What is not looked at does not matter: whole runs. *)
From Verif Require Import Base TokModel ParModel LexSpec LexThms TokProofs PropsSceneLemmas TraceModel LooksThms SeenSpec Seen.
Open Scope mon_scope.

(** ** The end of the text is reached where it is reported *)
Section Eof.
Context {F : Type} (fo : FloatOps F) (cc : CharClass) (chk : bool).
Notation TM A := (M (tokenizer * list nat) (result A (error F))).
Definition eofp {A} (m : TM A) : Prop :=
  forall x s1 l1, m x = Done (Err EEof, (s1, l1)) -> length (tk_chars s1) <= tk_index s1.

Lemma e_ok {A} (a : A) : eofp (ret (Ok a)).
Proof. intros x s1 l1 E. discriminate. Qed.
Lemma e_str {A} m : eofp (ret (@Err A _ (EStr m))).
Proof. intros x s1 l1 E. discriminate. Qed.
Lemma e_fuel {A} : eofp (@out_of_fuel _ (result A (error F))).
Proof. intros x s1 l1 E. discriminate. Qed.
Lemma e_bind {A B} (m : M _ A) (k : A -> TM B) : (forall a, eofp (k a)) -> eofp (bind m k).
Proof. intros H x s1 l1 E. unfold bind in E. destruct (m x) as [[a y]| |]; try discriminate. eapply H; exact E. Qed.
Lemma e_tryb {A B} (m : TM A) (k : A -> TM B) : eofp m -> (forall a, eofp (k a)) -> eofp (tryb m k).
Proof.
  intros Hm H x s1 l1 E. unfold tryb, bind in E. destruct (m x) as [[[a|e] y]| |] eqn:Em; try discriminate.
  - eapply H; exact E.
  - injection E as -> ->. eapply Hm; exact Em.
Qed.
Lemma e_peek : eofp (@tk_peek_t F).
Proof.
  intros [s l] s1 l1 E. unfold tk_peek_t, look, tk_peek, tk_is_empty in E. cbn in E. destruct (Nat.leb_spec (length (tk_chars s)) (tk_index s)).
  - injection E as <- <-. assumption.
  - cbn in E. destruct (nth_error _ _); discriminate.
Qed.
Lemma e_next : eofp (@tk_next_t F).
Proof.
  intros [s l] s1 l1 E. unfold tk_next_t, look, tk_next, tk_is_empty in E. cbn in E. destruct (Nat.leb_spec (length (tk_chars s)) (tk_index s)).
  - injection E as <- <-. assumption.
  - cbn in E. destruct (nth_error _ _); discriminate.
Qed.
Lemma e_finish p l b : eofp (unseen (num_finish fo p l b)).
Proof.
  intros [s r] s1 l1 E. unfold unseen, num_finish, tryb, bind, ret, cur_pos, get in E. cbn in E. destruct l as [|c l]; [discriminate|].
  destruct b; [destruct (parse_float_str _ _) eqn:Ep|destruct (parse_isize _) eqn:Ep]; try discriminate; injection E as -> -> ->.
  - now apply parse_float_err in Ep.
  - now apply parse_isize_err in Ep.
Qed.
Lemma e_exponent p l b ex : eofp (unseen (num_exponent fo chk p l b ex)).
Proof.
  intros [s r] s1 l1 E. unfold unseen, num_exponent, tryb, bind, ret, lift in E. cbn in E.
  destruct ex; try discriminate.
  - destruct (_ && _)%bool.
    + destruct (parse_isize _) eqn:Ep; [|injection E as -> -> ->; now apply parse_isize_err in Ep].
      destruct (isize_pow10 _ _); try discriminate. destruct (isize_mul _ _ _); discriminate.
    + destruct (parse_float_str _ _) eqn:Ep; [discriminate|injection E as -> -> ->; now apply parse_float_err in Ep].
  - destruct (parse_float_str _ _) eqn:Ep; [discriminate|injection E as -> -> ->; now apply parse_float_err in Ep].
Qed.
Ltac step := first
  [ apply e_ok | apply e_str | apply e_fuel | apply e_peek | apply e_next | apply e_finish | apply e_exponent
  | match goal with H : _ |- _ => apply H end
  | apply e_tryb; [|intros ?] | apply e_bind; intros ?
  | match goal with |- eofp (match ?x with _ => _ end) => destruct x end ].
Lemma e_prelude loop : (forall p l b, eofp (loop p l b)) -> eofp (@num_prelude_t F loop).
Proof. intros H. unfold num_prelude_t. repeat step. Qed.
Lemma e_num_loop fuel : forall p l b, eofp (num_loop_t fo cc chk fuel p l b).
Proof.
  induction fuel as [|fuel IH]; intros p l b; cbn [num_loop_t]; [apply e_fuel|].
  repeat first [apply e_prelude; exact IH | step].
Qed.
Lemma e_str_loop fuel : forall p l, eofp (@str_loop_t F fuel p l).
Proof. induction fuel as [|fuel IH]; intros p l; cbn [str_loop_t]; repeat step. Qed.
Lemma e_id_loop fuel : forall l, eofp (@id_loop_t F cc fuel l).
Proof. induction fuel as [|fuel IH]; intros l; cbn [id_loop_t]; repeat step. Qed.
Lemma e_ws fuel : eofp (@skip_ws_t F fuel).
Proof. induction fuel as [|fuel IH]; cbn [skip_ws_t]; repeat step. Qed.
Lemma e_one fuel : eofp (tokenize_one_t fo cc chk fuel).
Proof.
  induction fuel as [|fuel IH]; cbn [tokenize_one_t]; [apply e_fuel|].
  intros x s1 l1 E. unfold bind at 1 in E. destruct (tk_peek_t x) as [[[c|e] y]| |] eqn:Ep; try discriminate.
  - revert y s1 l1 E Ep. intros y s1 l1 E _. revert y s1 l1 E. fold (@eofp (Token F)).
    match goal with |- forall y s1 l1, ?m y = _ -> _ => change (eofp m) end.
    unfold tokenize_str_t, tokenize_num_t, tokenize_id_t.
    repeat first [apply e_str_loop | apply e_prelude; apply e_num_loop | apply e_id_loop | apply e_ws | step].
  - injection E as -> ->. eapply e_peek; exact Ep.
Qed.
Lemma e_loop fuel : forall ts x ts' s1 l1, tokenize_loop_t fo cc chk fuel ts x = Done (Ok ts', (s1, l1)) -> length (tk_chars s1) <= tk_index s1.
Proof.
  induction fuel as [|fuel IH]; intros ts [s l] ts' s1 l1 E; cbn [tokenize_loop_t] in E; [discriminate|].
  unfold bind at 1 in E. cbn in E. unfold tk_is_empty in E. destruct (Nat.leb_spec (length (tk_chars s)) (tk_index s)) as [L|L]; cbn in E.
  - injection E as <- <- <-. exact L.
  - unfold bind in E. destruct (tokenize_one_t _ _ _ _ _) as [[[t|[m|]] y]| |] eqn:Eo; try discriminate.
    + eapply IH; exact E.
    + destruct y as [s2 l2]. injection E as <- <- <-. eapply e_one; exact Eo.
Qed.
End Eof.

(** ** Whole runs *)
Section Runs.
Context {F : Type} (fo : FloatOps F) (cc : CharClass) (chk : bool).
Lemma lf_is input t : lf_text input t -> replace_crlf input = t.
Proof. intros H. symmetry. now apply lf_text_iff. Qed.
Lemma nil_no_gap : no_gap [].
Proof. intros i j []. Qed.
Lemma start_inv t : inv tk_index tk_chars t 0 (mkTk t 0 (mkPos 1 1) (mkPos 1 1)) [].
Proof. split; [reflexivity|]. split; [cbn; lia|]. split; [lia|exact nil_no_gap]. Qed.

Lemma text_unseen input input' t t' r l : lf_text input t -> lf_text input' t' -> length t' = length t ->
  tokenize_t fo cc chk input = Done (r, l) -> agree t t' l -> tokenize_t fo cc chk input' = Done (r, l).
Proof.
  intros L L' N E G. apply lf_is in L, L'. unfold tokenize_t, tk_new in *. rewrite L in E. rewrite L'. clear L L'.
  unfold tk_fuel in *. cbn [tk_chars] in *. rewrite N.
  destruct (tokenize_loop_t fo cc chk _ [] _) as [[r1 [s1 l1]]| |] eqn:Et in E; try discriminate. injection E as <- <-. cbn in *.
  destruct (t_loop fo cc chk t t' N _ 0 [] _ _ _ _ _ (start_inv t) Et) as (_ & _ & H).
  specialize (H G). unfold tswap in H. cbn in H. now rewrite H.
Qed.
Lemma text_no_gap input r l : tokenize_t fo cc chk input = Done (r, l) -> no_gap l.
Proof.
  intros E. unfold tokenize_t in *.
  destruct (tokenize_loop_t fo cc chk _ [] _) as [[r1 [s1 l1]]| |] eqn:Et in E; try discriminate. injection E as <- <-. cbn in *.
  destruct (t_loop fo cc chk _ _ eq_refl _ 0 [] _ _ _ _ _ (start_inv _) Et) as ((_ & _ & _ & H) & _). exact H.
Qed.
Lemma text_all input t ts l : lf_text input t -> tokenize_t fo cc chk input = Done (Ok ts, l) -> forall i, i < length t -> In i l.
Proof.
  intros L E i Hi. apply lf_is in L. unfold tokenize_t, tk_new in *. rewrite L in E.
  destruct (tokenize_loop_t fo cc chk _ [] _) as [[r1 [s1 l1]]| |] eqn:Et in E; try discriminate. injection E as -> <-. cbn.
  destruct (t_loop fo cc chk _ _ eq_refl _ 0 [] _ _ _ _ _ (start_inv t) Et) as ((H1 & H2 & _) & _).
  apply e_loop in Et. rewrite H1 in Et. apply H2. lia.
Qed.
Lemma tokens_start (toks : list (Token F)) : inv (@pr_index F) (@pr_tokens F) toks 0 (mkPr toks 0) [].
Proof. split; [reflexivity|]. split; [cbn; lia|]. split; [lia|exact nil_no_gap]. Qed.
Lemma tokens_unseen (toks toks' : list (Token F)) r l : length toks' = length toks ->
  parse_tokens_t fo toks = Done (r, l) -> agree toks toks' l -> parse_tokens_t fo toks' = Done (r, l).
Proof.
  intros N E G. unfold parse_tokens_t in *.
  destruct (parse_tokens_m_t fo _) as [[r1 [s1 l1]]| |] eqn:Et in E; try discriminate. injection E as <- <-. cbn in *.
  destruct (p_all fo toks toks' N 0 _ _ _ _ _ (tokens_start toks) Et) as (_ & _ & H).
  specialize (H G). unfold pswap in H. cbn in H. now rewrite H.
Qed.
Lemma tokens_no_gap (toks : list (Token F)) r l : parse_tokens_t fo toks = Done (r, l) -> no_gap l.
Proof.
  intros E. unfold parse_tokens_t in *.
  destruct (parse_tokens_m_t fo _) as [[r1 [s1 l1]]| |] eqn:Et in E; try discriminate. injection E as <- <-. cbn in *.
  destruct (p_all fo toks toks eq_refl 0 _ _ _ _ _ (tokens_start toks) Et) as ((_ & _ & _ & H) & _). exact H.
Qed.
(** The same from the characters to the scene. *)
Lemma all_unseen input input' t t' r l l' : lf_text input t -> lf_text input' t' -> length t' = length t ->
  parse_t fo cc chk input = Done (r, l, l') -> agree t t' l -> parse_t fo cc chk input' = Done (r, l, l').
Proof.
  intros L L' N E G. unfold parse_t in *. destruct (tokenize_t fo cc chk input) as [[ts l1]| |] eqn:Et; try discriminate.
  assert (l1 = l) as -> by (destruct ts; [destruct (parse_tokens_t fo _) as [[]| |]; try discriminate|]; injection E; auto).
  rewrite (text_unseen _ _ _ _ _ _ L L' N Et G). exact E.
Qed.
Lemma all_tokens input toks r l l' : parse_t fo cc chk input = Done (r, l, l') -> tokenize fo cc chk input = Done (Ok toks) ->
  parse_tokens_t fo toks = Done (r, l').
Proof.
  intros E Et. rewrite tokenize_same in Et. unfold parse_t in E. destruct (tokenize_t fo cc chk input) as [[ts l1]| |]; try discriminate.
  injection Et as ->. destruct (parse_tokens_t fo toks) as [[r1 l2]| |]; try discriminate. now injection E as -> _ ->.
Qed.
End Runs.

(** ** Examples *)
Lemma agree_dec {A} (u v : list A) l : Forall (fun i => nth_error u i = nth_error v i) l -> agree u v l.
Proof. intros H i Hi. rewrite Forall_forall in H. now apply H. Qed.
Lemma no_cr s : Forall (fun c => c <> c_cr) s -> no_pair s.
Proof. intros H a b ->. apply Forall_app in H as (_ & H). inversion H. congruence. Qed.
Lemma longer_refuted : exists input input' r l, no_pair input /\ no_pair input' /\
  tokenize_t fo_sym cc_ascii true input = Done (r, l) /\ agree input input' l /\
  tokenize_t fo_sym cc_ascii true input' <> Done (r, l).
Proof.
  exists (s2l """x"""), (s2l """x""y"). do 2 eexists.
  split; [apply no_cr; repeat (apply Forall_cons; [discriminate|]); apply Forall_nil|].
  split; [apply no_cr; repeat (apply Forall_cons; [discriminate|]); apply Forall_nil|].
  split; [vm_compute; reflexivity|]. split; [|vm_compute; discriminate].
  apply agree_dec. repeat (apply Forall_cons; [reflexivity|]). apply Forall_nil.
Qed.
Lemma text_example : exists r l, lf_text (s2l "a % b c") (s2l "a % b c") /\
  tokenize_t fo_sym cc_ascii true (s2l "a % b c") = Done (Err r, l) /\ agree (s2l "a % b c") (s2l "a % ""#]") l.
Proof.
  do 2 eexists. split; [apply lf_text_iff; vm_compute; reflexivity|]. split; [vm_compute; reflexivity|].
  apply agree_dec. repeat (apply Forall_cons; [reflexivity|]). apply Forall_nil.
Qed.
Lemma tokens_example : exists r l,
  parse_tokens_t fo_sym (toks_of (s2l "WorldBegin Include ""a"" WorldEnd [ 1")) = Done (Ok r, l) /\
  agree (toks_of (s2l "WorldBegin Include ""a"" WorldEnd [ 1")) (toks_of (s2l "WorldBegin Include ""a"" WorldEnd Film Film")) l.
Proof.
  do 2 eexists. split; [vm_compute; reflexivity|].
  apply agree_dec. repeat (apply Forall_cons; [vm_compute; reflexivity|]). apply Forall_nil.
Qed.
