(** What is not looked at does not matter. *)
From Verif Require Import Base TokModel ParModel TraceModel SeenSpec.
Open Scope mon_scope.

Section Core.
Context {St T : Type} (idx : St -> nat) (items : St -> list T) (swap : list T -> St -> St) (cs cs' : list T).
Context (swap_idx : forall x s, idx (swap x s) = idx s).

(** All before the current index and before [n] is recorded, and there are no gaps. *)
Definition inv (n : nat) (s : St) (l : list nat) : Prop :=
  items s = cs /\ (forall i, i < idx s -> In i l) /\ (forall i, i < n -> In i l) /\ no_gap l.
Definition trk (n : nat) {A} (m : M (St * list nat) A) : Prop :=
  forall s l a s1 l1, inv n s l -> m (s, l) = Done (a, (s1, l1)) ->
    inv n s1 l1 /\ incl l l1 /\ (agree cs cs' l1 -> m (swap cs' s, l) = Done (a, (swap cs' s1, l1))).

Lemma trk_ret n {A} (a : A) : trk n (ret a).
Proof. intros s l b s1 l1 I E. injection E as <- <- <-. split; [exact I|]. split; [apply incl_refl|reflexivity]. Qed.
Lemma trk_panic n {A} : trk n (@panic _ A).
Proof. intros s l b s1 l1 I E. discriminate. Qed.
Lemma trk_fuel n {A} : trk n (@out_of_fuel _ A).
Proof. intros s l b s1 l1 I E. discriminate. Qed.
Lemma trk_bind n {A B} (m : M _ A) (k : A -> M _ B) : trk n m -> (forall a, trk n (k a)) -> trk n (bind m k).
Proof.
  intros Hm Hk s l b s2 l2 I E. unfold bind in *. destruct (m (s, l)) as [[a [s1 l1]]| |] eqn:Em; try discriminate.
  destruct (Hm _ _ _ _ _ I Em) as (I1 & X1 & A1). destruct (Hk a _ _ _ _ _ I1 E) as (I2 & X2 & A2).
  split; [exact I2|]. split; [eapply incl_tran; eassumption|]. intros G. rewrite A1; [now apply A2|].
  intros i Hi. apply G, X2, Hi.
Qed.
Lemma trk_tryb n {A B X} (m : M _ (result A X)) (k : A -> M _ (result B X)) :
  trk n m -> (forall a, trk n (k a)) -> trk n (tryb m k).
Proof. intros Hm Hk. apply trk_bind; [exact Hm|]. intros [a|e]; [apply Hk|apply trk_ret]. Qed.
Lemma trk_lift n {A} (o : out A) : trk n (lift o).
Proof. destruct o; [apply trk_ret|apply trk_panic|apply trk_fuel]. Qed.
(** Reading the state: only the index and the number of items may be used. *)
Lemma trk_get n {A} (k : St -> M _ A) : (forall s, items s = cs -> trk (idx s) (k s)) ->
  (forall s x, items s = cs -> k (swap cs' s) x = k s x) -> trk n (bind (unseen get) k).
Proof.
  intros Hk Hs s l a s1 l1 (E1 & I2 & I3 & I4) E. unfold bind, unseen, get in *. cbn in *.
  destruct (Hk s E1 s l a s1 l1 ltac:(now repeat split) E) as ((J1 & J2 & J3 & J4) & X & G).
  repeat split; auto. intros H. rewrite Hs; auto.
Qed.
(** A method that does not look and does not move. *)
Lemma trk_unseen n {A} (m : M St A) : (forall s a s1, items s = cs -> m s = Done (a, s1) -> s1 = s /\ m (swap cs' s) = Done (a, swap cs' s)) ->
  trk n (unseen m).
Proof.
  intros H s l a s1 l1 I E. unfold unseen in *. cbn in *. destruct (m s) as [[b s2]| |] eqn:Em; try discriminate.
  injection E as -> -> ->. destruct (H _ _ _ (proj1 I) Em) as (-> & H2).
  split; [exact I|]. split; [apply incl_refl|]. intros _. now rewrite H2.
Qed.
(** One that does. *)
Lemma trk_look n {A} (m : M St A) : (forall s a s1, items s = cs -> m s = Done (a, s1) ->
    items s1 = cs /\ idx s1 <= idx s + 1 /\
    (nth_error cs (idx s) = nth_error cs' (idx s) -> m (swap cs' s) = Done (a, swap cs' s1))) ->
  trk n (look idx m).
Proof.
  intros H s l a s1 l1 (I1 & I2 & I3 & I4) E. unfold look in *. cbn in *. destruct (m s) as [[b s2]| |] eqn:Em; try discriminate.
  injection E as -> -> <-. destruct (H _ _ _ I1 Em) as (H1 & H2 & H3).
  split; [|split].
  - split; [exact H1|]. split; [|split].
    + intros i Hi. destruct (Nat.eq_dec i (idx s)) as [->|Hn]; [now left|right; apply I2; lia].
    + intros i Hi. right. now apply I3.
    + intros i j [<-|Hj] Hij; right; [now apply I2|]. eapply I4; eassumption.
  - intros i Hi. now right.
  - intros G. rewrite H3; [now rewrite swap_idx|]. apply G. now left.
Qed.
End Core.

Section Tok.
Context {F : Type} (fo : FloatOps F) (cc : CharClass) (chk : bool) (cs cs' : list N) (same : length cs' = length cs).
Definition tswap (x : list N) (t : tokenizer) : tokenizer := mkTk x (tk_index t) (tk_pos t) (tk_prev t).
Notation tr := (trk tk_index tk_chars tswap cs cs').
Notation TM A := (M (tokenizer * list nat) (result A (error F))).

Lemma t_peek n : tr n (@tk_peek_t F).
Proof.
  apply trk_look; [reflexivity|]. intros s a s1 E. unfold tk_peek, tk_is_empty, tswap. cbn. rewrite E, same.
  destruct (length cs <=? tk_index s); cbn.
  - intros [= <- <-]. repeat split; auto; lia.
  - destruct (nth_error cs (tk_index s)) as [c|] eqn:En; [|discriminate]. intros [= <- <-]. repeat split; auto; try lia.
    intros <-. reflexivity.
Qed.
Lemma t_next n : tr n (@tk_next_t F).
Proof.
  apply trk_look; [reflexivity|]. intros s a s1 E. unfold tk_next, tk_is_empty, tswap. cbn. rewrite E, same.
  destruct (length cs <=? tk_index s); cbn.
  - intros [= <- <-]. repeat split; auto; lia.
  - destruct (nth_error cs (tk_index s)) as [c|] eqn:En; [|discriminate]. intros [= <- <-]. cbn. repeat split; auto; try lia.
    intros <-. reflexivity.
Qed.
Lemma t_pos n : tr n cur_pos_t.
Proof. apply trk_unseen. intros s a s1 E [= <- <-]. split; reflexivity. Qed.
Lemma t_prev n : tr n cur_prev_t.
Proof. apply trk_unseen. intros s a s1 E [= <- <-]. split; reflexivity. Qed.
Lemma t_finish n p l b : tr n (unseen (num_finish fo p l b)).
Proof.
  apply trk_unseen. intros s a s1 E. unfold num_finish, tryb, bind, ret, cur_pos, get. destruct l as [|c l].
  - intros [= <- <-]. split; reflexivity.
  - destruct b; [destruct (parse_float_str _ _)|destruct (parse_isize _)]; intros [= <- <-]; split; reflexivity.
Qed.
Lemma t_exponent n p l b ex : tr n (unseen (num_exponent fo chk p l b ex)).
Proof.
  apply trk_unseen. intros s a s1 E. unfold num_exponent, tryb, bind, ret, lift.
  destruct ex; try (intros [= <- <-]; split; reflexivity).
  - destruct (_ && _)%bool.
    + destruct (parse_isize _); [|intros [= <- <-]; split; reflexivity].
      destruct (isize_pow10 _ _); try discriminate. destruct (isize_mul _ _ _); try discriminate. intros [= <- <-]; split; reflexivity.
    + destruct (parse_float_str _ _); intros [= <- <-]; split; reflexivity.
  - destruct (parse_float_str _ _); intros [= <- <-]; split; reflexivity.
Qed.

Ltac step := first
  [ apply trk_ret | apply trk_panic | apply trk_fuel | apply t_peek | apply t_next | apply t_pos | apply t_prev
  | apply t_finish | apply t_exponent
  | match goal with H : _ |- _ => apply H end
  | apply trk_tryb; [|intros ?] | apply trk_bind; [|intros ?]
  | match goal with |- trk _ _ _ _ _ _ (match ?x with _ => _ end) => destruct x end ].

Lemma t_prelude n loop : (forall p l b, tr n (loop p l b)) -> tr n (@num_prelude_t F loop).
Proof. intros H. unfold num_prelude_t. repeat step. Qed.
Lemma t_num_loop n fuel : forall p l b, tr n (num_loop_t fo cc chk fuel p l b).
Proof.
  induction fuel as [|fuel IH]; intros p l b; cbn [num_loop_t]; [apply trk_fuel|].
  repeat first [step | apply t_prelude; exact IH].
Qed.
Lemma t_num n fuel : tr n (tokenize_num_t fo cc chk fuel).
Proof. apply t_prelude, t_num_loop. Qed.
Lemma t_str_loop n fuel : forall p l, tr n (@str_loop_t F fuel p l).
Proof. induction fuel as [|fuel IH]; intros p l; cbn [str_loop_t]; repeat step. Qed.
Lemma t_str n fuel : tr n (@tokenize_str_t F fuel).
Proof. unfold tokenize_str_t. repeat first [step | apply t_str_loop]. Qed.
Lemma t_id_loop n fuel : forall l, tr n (@id_loop_t F cc fuel l).
Proof. induction fuel as [|fuel IH]; intros l; cbn [id_loop_t]; repeat step. Qed.
Lemma t_id n fuel : tr n (@tokenize_id_t F cc fuel).
Proof. unfold tokenize_id_t. repeat first [apply t_id_loop | step]. Qed.
Lemma t_comment n fuel : tr n (@skip_comment_t F fuel).
Proof. induction fuel as [|fuel IH]; cbn [skip_comment_t]; repeat step. Qed.
Lemma t_ws n fuel : tr n (@skip_ws_t F fuel).
Proof. induction fuel as [|fuel IH]; cbn [skip_ws_t]; repeat step. Qed.
Lemma t_one n fuel : tr n (tokenize_one_t fo cc chk fuel).
Proof.
  induction fuel as [|fuel IH]; cbn [tokenize_one_t];
    repeat first [apply t_comment | apply t_ws | apply t_str | apply t_num | apply t_id | step].
Qed.
Lemma t_loop fuel : forall n l, tr n (tokenize_loop_t fo cc chk fuel l).
Proof.
  induction fuel as [|fuel IH]; intros n l; cbn [tokenize_loop_t]; [apply trk_fuel|].
  apply trk_get.
  - intros s E. repeat first [apply t_one | step].
  - intros s x E. unfold tk_is_empty, tswap. cbn. now rewrite E, same.
Qed.
End Tok.

Section Par.
Context {F : Type} (fo : FloatOps F) (cs cs' : list (Token F)) (same : length cs' = length cs).
Definition pswap (x : list (Token F)) (t : @parser F) : @parser F := mkPr x (pr_index t).
Notation tr := (trk (@pr_index F) (@pr_tokens F) pswap cs cs').
Notation PM A := (M (@parser F * list nat) (result A (error F))).

Lemma p_peek n : tr n (@pr_peek_t F).
Proof.
  apply trk_look; [reflexivity|]. intros s a s1 E. unfold pr_peek, pr_is_empty, pswap. cbn. rewrite E, same.
  destruct (length cs <=? pr_index s); cbn.
  - intros [= <- <-]. repeat split; auto; lia.
  - destruct (nth_error cs (pr_index s)) as [c|] eqn:En; [|discriminate]. intros [= <- <-]. repeat split; auto; try lia.
    intros <-. reflexivity.
Qed.
Lemma p_next n : tr n (@pr_next_t F).
Proof.
  apply trk_look; [reflexivity|]. intros s a s1 E. unfold pr_next, pr_is_empty, pswap. cbn. rewrite E, same.
  destruct (length cs <=? pr_index s); cbn.
  - intros [= <- <-]. repeat split; auto; lia.
  - destruct (nth_error cs (pr_index s)) as [c|] eqn:En; [|discriminate]. intros [= <- <-]. cbn. repeat split; auto; try lia.
    intros <-. reflexivity.
Qed.
Lemma p_pos n : tr n (@pr_pos_t F).
Proof.
  apply trk_look; [reflexivity|]. intros s a s1 E. unfold pr_pos, pswap. cbn. rewrite E, same.
  destruct (length cs <=? pr_index s); cbn.
  - intros [= <- <-]. repeat split; auto; lia.
  - destruct (nth_error cs (pr_index s)) as [c|] eqn:En; [|discriminate]. intros [= <- <-]. repeat split; auto; try lia.
    intros <-. reflexivity.
Qed.
Lemma p_vidx n {A} (v : list A) i : tr n (@vidx_t F A v i).
Proof.
  apply trk_unseen. intros s a s1 E. unfold vidx. destruct (nth_error v i); [|discriminate]. intros [= <- <-]. split; reflexivity.
Qed.
(** Going back to where something was tried. *)
Lemma p_set n : tr n (@set_index_t F n).
Proof.
  intros s l a s1 l1 (I1 & I2 & I3 & I4) E. unfold set_index_t, unseen, set_index in *. cbn in *. injection E as <- <- <-.
  repeat split; cbn; auto. apply incl_refl.
Qed.

Ltac step := first
  [ apply trk_ret | apply trk_panic | apply trk_fuel | apply p_peek | apply p_next | apply p_pos | apply p_vidx | apply trk_lift
  | match goal with H : _ |- _ => apply H end
  | apply trk_tryb; [|intros ?] | apply trk_bind; [|intros ?]
  | match goal with |- trk _ _ _ _ _ _ (match ?x with _ => _ end) => destruct x end ].

Lemma p_int n : tr n (@parse_int_t F). Proof. unfold parse_int_t. repeat step. Qed.
Lemma p_string n : tr n (@parse_string_t F). Proof. unfold parse_string_t. repeat step. Qed.
Lemma p_identifier n : tr n (@parse_identifier_t F). Proof. unfold parse_identifier_t. repeat step. Qed.
Lemma p_bool n : tr n (@parse_bool_t F). Proof. unfold parse_bool_t. repeat step. Qed.
Lemma p_float n : tr n (parse_float_t fo). Proof. unfold parse_float_t. repeat step. Qed.
Lemma p_many n {A} (p : PM A) name : (forall n, tr n p) -> tr n (parse_many_t p name).
Proof.
  intros H. unfold parse_many_t. apply trk_get.
  - intros s E. generalize (@nil A) as l. induction (pr_fuel s) as [|fuel IH]; intros l; cbn [parse_many_loop_t]; repeat step.
  - intros s x E. unfold pr_fuel, pswap. cbn. now rewrite E, same.
Qed.
Lemma p_n n {A} (p : PM A) k name : (forall n, tr n p) -> tr n (parse_n_t p k name).
Proof.
  intros H. unfold parse_n_t. destruct (0 <? k); [|apply trk_panic]. apply trk_get.
  - intros s E. generalize (@nil A) as l. generalize k at 2 as j. induction j as [|j IH]; intros l; cbn [parse_n_loop_t]; [apply trk_ret|].
    repeat first [apply p_set | step].
  - reflexivity.
Qed.
Lemma p_list n {A} (p : PM A) name : (forall n, tr n p) -> tr n (parse_list_t p name).
Proof. intros H. unfold parse_list_t. repeat first [apply p_many; exact H | step]. Qed.
Lemma p_list_of n {A} (p : PM A) k name : (forall n, tr n p) -> tr n (parse_list_of_n_t p k name).
Proof. intros H. unfold parse_list_of_n_t. repeat first [apply p_n; exact H | step]. Qed.
Lemma p_one n {A} (p : PM A) name : (forall n, tr n p) -> tr n (parse_one_or_list_t p name).
Proof. intros H. unfold parse_one_or_list_t. repeat first [apply p_list; exact H | step]. Qed.
Lemma p_p2 n : tr n (parse_point2f_t fo).
Proof. unfold parse_point2f_t. repeat first [apply p_n; exact p_float | step]. Qed.
Lemma p_v2 n : tr n (parse_vector2f_t fo).
Proof. unfold parse_vector2f_t. repeat first [apply p_n; exact p_float | step]. Qed.
Lemma p_spectrum n : tr n (parse_spectrum_t fo).
Proof. unfold parse_spectrum_t. repeat first [apply p_list; exact p_float | step]. Qed.
Lemma p_param n ps : tr n (parse_param_list_t fo ps).
Proof.
  unfold parse_param_list_t.
  repeat first [ apply p_one; first [exact p_int | exact p_float | exact p_bool | exact p_string]
               | apply p_list; first [exact p_p2 | exact p_v2] | apply p_list_of; exact p_float | apply p_spectrum | apply p_string | step].
Qed.
Lemma p_params n ps : tr n (parse_param_lists_t fo ps).
Proof.
  unfold parse_param_lists_t. apply trk_get.
  - intros s E. apply trk_bind; [|intros a; apply trk_ret]. revert ps. induction (pr_fuel s) as [|fuel IH]; intros ps; cbn [parse_param_lists_loop_t];
      repeat first [apply p_param | step].
  - intros s x E. unfold pr_fuel, pswap. cbn. now rewrite E, same.
Qed.
Lemma p_struct n p : tr n (parse_struct_t fo p).
Proof. unfold parse_struct_t. repeat first [apply p_string | apply p_params | step]. Qed.
Lemma p_body n block : tr n block -> tr n (parse_directive_body_t fo block).
Proof.
  intros H. unfold parse_directive_body_t.
  repeat first [apply p_identifier | apply p_struct | apply p_string | apply p_params | step].
Qed.
Lemma p_dirs_loop n fuel : forall l, tr n (parse_directives_loop_t fo fuel l).
Proof.
  induction fuel as [|fuel IH]; intros l; cbn [parse_directives_loop_t]; repeat first [apply p_body; apply IH | step].
Qed.
Lemma p_dirs n : tr n (parse_directives_t fo).
Proof.
  unfold parse_directives_t. apply trk_get; [intros; apply p_dirs_loop|]. intros s x E. unfold pr_fuel, pswap. cbn. now rewrite E, same.
Qed.
Lemma p_vec3 n (l : list F) i : tr n (vec3_at_t l i).
Proof. unfold vec3_at_t. repeat step. Qed.
Lemma p_mat3 n (l : list F) : tr n (mat3_of_t l).
Proof. unfold mat3_of_t. repeat step. Qed.
Lemma p_exactly n p what k : tr n (floats_exactly_t fo p what k).
Proof. unfold floats_exactly_t, parse_floats_t. repeat first [apply p_many; exact p_float | step]. Qed.
Lemma p_pre n : tr n (parse_predirective_t fo).
Proof.
  unfold parse_predirective_t.
  repeat first [apply p_identifier | apply p_struct | apply p_string | apply p_exactly | apply p_vec3 | apply p_mat3 | step].
Qed.
Lemma p_pres n : tr n (parse_predirectives_t fo).
Proof.
  unfold parse_predirectives_t. apply trk_get.
  - intros s E. generalize (@nil (PreDirective F)) as l. induction (pr_fuel s) as [|fuel IH]; intros l; cbn [parse_predirectives_loop_t];
      repeat first [apply p_pre | step].
  - intros s x E. unfold pr_fuel, pswap. cbn. now rewrite E, same.
Qed.
Lemma p_all n : tr n (parse_tokens_m_t fo).
Proof. unfold parse_tokens_m_t, parse_directive_t. repeat first [apply p_pres | apply p_body; apply p_dirs | step]. Qed.
End Par.
