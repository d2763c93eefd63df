(** How often the parser looks at a token. *)
From Verif Require Import Base TokModel ParModel TraceModel TraceCore.
Open Scope mon_scope.

Section Par.
Context {F : Type} (fo : FloatOps F) (toks : list (Token F)) (i0 : nat).
Notation PM A := (M (@parser F) (result A (error F))).
Notation PT A := (M (@parser F * list nat) (result A (error F))).
Notation st a := (mkPr toks a).
Notation top := (length toks).
Notation obp := (ob top i0).

Definition notnum (a : nat) : Prop :=
  match nth_error toks a with Some (mkTok _ (TInt _)) | Some (mkTok _ (TFloat _)) => False | _ => True end.
Definition ident (a : nat) : Prop := exists p s, nth_error toks a = Some (mkTok p (TIdent s)).
Definition closer (a : nat) : Prop := exists p s, nth_error toks a = Some (mkTok p (TIdent s)) /\ is_closer s = true.
Lemma ident_notnum a : ident a -> notnum a.
Proof. intros (p & s & E). unfold notnum. now rewrite E. Qed.
Lemma closer_ident a : closer a -> ident a.
Proof. intros (p & s & E & _). now exists p, s. Qed.

Definition fin {A} (P : A -> nat -> nat -> nat -> Prop) : A -> @parser F -> nat -> nat -> Prop :=
  fun r s n k => exists b, s = st b /\ b <= top /\ P r b n k.

Lemma nth_lt a t : nth_error toks a = Some t -> a < top.
Proof. intros E. apply nth_error_Some. congruence. Qed.
Lemma nth_ge a : nth_error toks a = None -> top <= a.
Proof. apply nth_error_None. Qed.

Lemma ob_peek a (Q : result (Token F) (error F) -> parser -> nat -> nat -> Prop) : a <= top ->
  (forall k, (a = i0 -> k = 1) -> (a <> i0 -> k = 0) ->
    match nth_error toks a with Some t => Q (Ok t) (st a) 1 k | None => Q (Err EEof) (st a) 1 k end) ->
  obp (st a) pr_peek_t pr_peek Q.
Proof.
  intros L H. unfold pr_peek_t. destruct (nth_error toks a) as [t|] eqn:E.
  - eapply ob_look; [|exact L|exact H]. unfold pr_peek, pr_is_empty. cbn. rewrite E.
    assert (a < top) by (eapply nth_lt; eauto). now destruct (Nat.leb_spec top a); try lia.
  - eapply ob_look; [|exact L|exact H]. unfold pr_peek, pr_is_empty. cbn.
    apply nth_ge in E. now destruct (Nat.leb_spec top a); try lia.
Qed.
Lemma ob_next a (Q : result (Token F) (error F) -> parser -> nat -> nat -> Prop) : a <= top ->
  (forall k, (a = i0 -> k = 1) -> (a <> i0 -> k = 0) ->
    match nth_error toks a with Some t => Q (Ok t) (st (a + 1)) 1 k | None => Q (Err EEof) (st a) 1 k end) ->
  obp (st a) pr_next_t pr_next Q.
Proof.
  intros L H. unfold pr_next_t. destruct (nth_error toks a) as [t|] eqn:E.
  - eapply ob_look; [|exact L|exact H]. unfold pr_next, pr_is_empty. cbn. rewrite E.
    assert (a < top) by (eapply nth_lt; eauto). now destruct (Nat.leb_spec top a); try lia.
  - eapply ob_look; [|exact L|exact H]. unfold pr_next, pr_is_empty. cbn.
    apply nth_ge in E. now destruct (Nat.leb_spec top a); try lia.
Qed.
Lemma ob_pos a (Q : result Pos (error F) -> parser -> nat -> nat -> Prop) : a <= top ->
  (forall k, (a = i0 -> k = 1) -> (a <> i0 -> k = 0) ->
    match nth_error toks a with Some t => Q (Ok (tok_pos t)) (st a) 1 k | None => Q (Err EEof) (st a) 1 k end) ->
  obp (st a) pr_pos_t pr_pos Q.
Proof.
  intros L H. unfold pr_pos_t. destruct (nth_error toks a) as [t|] eqn:E.
  - eapply ob_look; [|exact L|exact H]. unfold pr_pos. cbn. rewrite E.
    assert (a < top) by (eapply nth_lt; eauto). now destruct (Nat.leb_spec top a); try lia.
  - eapply ob_look; [|exact L|exact H]. unfold pr_pos. cbn.
    apply nth_ge in E. now destruct (Nat.leb_spec top a); try lia.
Qed.
Lemma ob_vidx {A} (v : list A) i s (Q : A -> @parser F -> nat -> nat -> Prop) :
  (forall a, Q a s 0 0) -> obp s (vidx_t v i) (vidx v i) Q.
Proof.
  intros H. apply ob_unseen. unfold vidx. destruct (nth_error v i) as [x|]; [|discriminate].
  intros a s' E. injection E as <- <-. apply H.
Qed.
Lemma ob_get s (Q : @parser F -> @parser F -> nat -> nat -> Prop) : Q s s 0 0 -> obp s (unseen get) get Q.
Proof. intros H. apply ob_unseen. intros a s' E. injection E as <- <-. exact H. Qed.
Lemma ob_set j s (Q : unit -> @parser F -> nat -> nat -> Prop) : pr_tokens s = toks -> Q tt (st j) 0 0 ->
  obp s (set_index_t j) (set_index j) Q.
Proof. intros E0 H. apply ob_unseen. intros a s' E. injection E as <- <-. now rewrite E0. Qed.
Lemma ob_done {A} (P : A -> nat -> nat -> nat -> Prop) a r n k : a <= top -> P r a n k ->
  fin P r (st a) n k.
Proof. intros L H. exists a. auto. Qed.

(** Arithmetic after [notnum] and [ident] have been used. *)
Ltac ar := repeat split; intros; repeat match goal with
  | H : _ /\ _ |- _ => destruct H
  | X : ident ?b, H : ident ?b -> _ |- _ => specialize (H X)
  | X : notnum ?b, H : notnum ?b -> _ |- _ => specialize (H X)
  | X : closer ?b, H : closer ?b -> _ |- _ => specialize (H X)
  | X : ~ ?P, H : ~ ?P -> _ |- _ => specialize (H X)
  end; lia.

(** One step of a proof: the head of the program. *)
Ltac peek E := apply ob_bind; apply ob_peek; [lia|]; let k := fresh "k" in intros k ? ?;
  match goal with |- match nth_error toks ?a with _ => _ end => destruct (nth_error toks a) as [[? []]|] eqn:E end.
Ltac next := first [apply ob_bind | apply ob_tryb]; apply ob_next; [lia|]; let k := fresh "k" in intros k ? ?;
  match goal with E : nth_error toks ?a = Some _ |- match nth_error toks ?a with _ => _ end => rewrite E end.
Ltac fin := apply ob_ret; apply ob_done; [try lia|].
Ltac bnd := repeat match goal with
  | E : nth_error toks ?a = Some _ |- _ => lazymatch goal with _ : a < top |- _ => fail | _ => pose proof (nth_lt _ _ E) end end.

Definition item_post {A} (v a : nat) (r : result A (error F)) (b n k : nat) : Prop :=
  (i0 < a -> k = 0) /\
  match r with
  | Ok _ => b = a + v /\ n = 2 * v /\ k <= 2 /\ (b <= i0 -> k = 0)
  | Err _ => b = a /\ n <= 2 * v - 1 /\ k <= 2 /\ (notnum a -> n <= 1 /\ (i0 = a -> k <= 1) /\ (a < i0 -> k = 0))
  end.
Definition item {A} (v : nat) (pc : PT A) (p : PM A) : Prop :=
  forall a, a <= top -> obp (st a) pc p (fin (item_post v a)).

Ltac leaf := fin; unfold item_post; ar.
Lemma int_item : item 1 parse_int_t parse_int.
Proof. intros a L. unfold parse_int_t, parse_int. peek E; bnd; try leaf. next. leaf. Qed.
Lemma string_item : item 1 parse_string_t parse_string.
Proof. intros a L. unfold parse_string_t, parse_string. peek E; bnd; try leaf. next. leaf. Qed.
Lemma float_item : item 1 (parse_float_t fo) (parse_float fo).
Proof. intros a L. unfold parse_float_t, parse_float. peek E; bnd; try leaf; next; leaf. Qed.
Lemma bool_item : item 1 parse_bool_t parse_bool.
Proof.
  intros a L. unfold parse_bool_t, parse_bool. peek E; bnd; try leaf.
  destruct (str_eqb _ _); [next; leaf|]. destruct (str_eqb _ _); [next; leaf|leaf].
Qed.
Lemma identifier_item a : a <= top -> obp (st a) parse_identifier_t parse_identifier
  (fin (fun r b n k => (i0 <> a -> k = 0) /\ match r with Ok s => b = a + 1 /\ n = 2 /\ k <= 2 /\ (exists p, nth_error toks a = Some (mkTok p (TIdent s))) | Err _ => b = a /\ n = 1 /\ k <= 1 end)).
Proof.
  intros L. unfold parse_identifier_t, parse_identifier.
  peek E; bnd; [|fin; ar..]. next. fin. repeat split; try (intros; lia). eauto.
Qed.

Section Item.
Context {A : Type} (w : nat) (pc : PT A) (p : PM A) (Hp : item w pc p) (name : string).

(** a run of items *)
Definition many_post (a : nat) (r : result (list A) (error F)) (b n k : nat) : Prop :=
  a <= b /\ (i0 < a -> k = 0) /\ k <= 2 /\ n <= 2 * (b - a) + 3 /\
  (notnum b -> n <= 2 * (b - a) + 1 /\ (i0 = b -> k <= 1) /\ (b < i0 -> k = 0)) /\
  match r with Ok _ => a < b | Err _ => a = b end.

Lemma many_loop_ob (Hw : 1 <= w <= 2) fuel : forall vs a, a <= top -> obp (st a) (parse_many_loop_t pc name fuel vs) (parse_many_loop p name fuel vs)
  (fin (fun r b n k => a <= b /\ (i0 < a -> k = 0) /\ k <= 2 /\ n <= 2 * (b - a) + 3 /\
     (notnum b -> n <= 2 * (b - a) + 1 /\ (i0 = b -> k <= 1) /\ (b < i0 -> k = 0)) /\
     match r with Ok _ => vs <> [] \/ a < b | Err _ => vs = [] /\ a = b end)).
Proof.
  induction fuel as [|fuel IH]; intros vs a L; [apply ob_fuel|].
  cbn [parse_many_loop parse_many_loop_t]. apply ob_bind. eapply ob_weak; [apply Hp, L|].
  intros r s n k (b & -> & Lb & H0 & H). destruct r as [x|e].
  - destruct H as (-> & -> & Hk & Hb). eapply ob_weak; [apply IH, Lb|].
    intros r s n1 k1 (c & -> & Lc & H1 & H2 & H3 & H4 & H5 & H6). apply ob_done; [exact Lc|].
    repeat split; try ar. destruct r; [right; lia|]. destruct H6 as [H6 _]. now destruct vs.
  - destruct H as (-> & Hn & Hk & Hx). destruct vs as [|v0 vs]; fin; repeat split; try ar; left; discriminate.
Qed.
Lemma many_ob (Hw : 1 <= w <= 2) a : a <= top -> obp (st a) (parse_many_t pc name) (parse_many p name) (fin (many_post a)).
Proof.
  intros L. unfold parse_many_t, parse_many. apply ob_bind. apply ob_get.
  eapply ob_weak; [apply many_loop_ob; auto|]. intros r s n k (b & -> & Lb & H). apply ob_done; [exact Lb|].
  unfold many_post. destruct r; intuition (try lia; try congruence).
Qed.

End Item.

Lemma float_ob a : a <= top -> obp (st a) (parse_float_t fo) (parse_float fo)
  (fin (fun r b n k => item_post 1 a r b n k /\ match r with Ok _ => ~ notnum a | Err _ => True end)).
Proof.
  intros L. unfold parse_float_t, parse_float.
  peek E; bnd; try (fin; split; [unfold item_post; ar|exact I]);
    next; fin; (split; [unfold item_post; ar|unfold notnum; rewrite E; auto]).
Qed.
Lemma n_loop_ob name m start : start <= top -> forall j vs a, a <= top ->
  obp (st a) (parse_n_loop_t (parse_float_t fo) m name start j vs) (parse_n_loop (parse_float fo) m name start j vs)
  (fin (fun r b n k => (i0 < a -> k = 0) /\ k <= 2 /\ n <= 2 * j /\
     match r with
     | Ok l => b = a + j /\ n = 2 * j /\ (b <= i0 -> k = 0) /\ length l = length vs + j
     | Err _ => b = start /\ 1 <= j /\ n <= 2 * j - 1 /\ (notnum a -> n <= 1 /\ (i0 = a -> k <= 1) /\ (a < i0 -> k = 0))
     end)).
Proof.
  intros Ls. induction j as [|j IH]; intros vs a L; cbn [parse_n_loop parse_n_loop_t]; [fin; ar|].
  apply ob_bind. eapply ob_weak; [apply float_ob, L|].
  intros r s n k (b & -> & Lb & (H0 & H) & HN). destruct r as [x|e].
  - destruct H as (-> & -> & Hk & Hb). eapply ob_weak; [apply IH, Lb|].
    intros r s n1 k1 (c & -> & Lc & G1 & G2 & G3 & G4). apply ob_done; [exact Lc|].
    repeat split; try ar. destruct r as [l|e].
    + destruct G4 as (-> & -> & G5 & G6). rewrite app_length in G6. cbn in G6. ar.
    + destruct G4 as (-> & G4 & G5 & G6). repeat split; try lia; exfalso; now apply HN.
  - destruct H as (-> & Hn & Hk & Hx). apply ob_bind. apply ob_set; [reflexivity|]. fin. repeat split; try ar; apply Hx.
Qed.
Lemma n_item name m : 1 <= m -> forall a, a <= top ->
  obp (st a) (parse_n_t (parse_float_t fo) m name) (parse_n (parse_float fo) m name)
  (fin (fun r b n k => item_post m a r b n k /\ match r with Ok l => length l = m | Err _ => True end)).
Proof.
  intros Hm a L. unfold parse_n_t, parse_n. destruct m as [|m]; [lia|]. cbn [Nat.ltb Nat.leb]. apply ob_bind, ob_get. cbn [pr_index].
  eapply ob_weak; [apply n_loop_ob; exact L|]. intros r s n k (b & -> & Lb & H0 & H1 & H2 & H3). apply ob_done; [exact Lb|].
  destruct r as [l|e]; unfold item_post; [cbn [length] in H3|]; ar.
Qed.
Lemma point2_item : item 2 (parse_point2f_t fo) (parse_point2f fo).
Proof.
  intros a L. unfold parse_point2f_t, parse_point2f. apply ob_tryb. eapply ob_weak; [apply n_item; [lia|exact L]|].
  intros r s n k (b & -> & Lb & H & _). destruct r as [l|e].
  - apply ob_bind, ob_vidx. intros x. apply ob_bind, ob_vidx. intros y. fin. unfold item_post in *. ar.
  - apply ob_done; [exact Lb|exact H].
Qed.
Lemma vector2_item : item 2 (parse_vector2f_t fo) (parse_vector2f fo).
Proof.
  intros a L. unfold parse_vector2f_t, parse_vector2f. apply ob_tryb. eapply ob_weak; [apply n_item; [lia|exact L]|].
  intros r s n k (b & -> & Lb & H & _). destruct r as [l|e].
  - apply ob_bind, ob_vidx. intros x. apply ob_bind, ob_vidx. intros y. fin. unfold item_post in *. ar.
  - apply ob_done; [exact Lb|exact H].
Qed.

(** What follows a parameter's header. *)
Definition over (b k : nat) : Prop := (b <= i0 -> k <= 3) /\ (ident b -> (i0 = b -> k <= 2) /\ (b < i0 -> k = 0)).
Definition lbr (a : nat) : Prop := exists p, nth_error toks a = Some (mkTok p TLBracket).
Definition list_post {A} (c a : nat) (r : result A (error F)) (b n k : nat) : Prop :=
  (i0 < a -> k = 0) /\ k <= 3 /\ (i0 = a -> k <= 2) /\
  match r with
  | Ok _ => a + 1 < b /\ (b <= i0 -> k = 0) /\ n <= 2 * (b - a) + 1
  | Err _ => a <= b /\ over b k /\ n <= 2 * (b - a) + c /\ (lbr a -> a < b)
  end.
Lemma list_ob {A} w (pc : PT A) p name : 1 <= w <= 2 -> item w pc p -> forall a, a <= top ->
  obp (st a) (parse_list_t pc name) (parse_list p name) (fin (list_post 4 a)).
Proof.
  intros Hw Hp a L. unfold parse_list_t, parse_list.
  peek E; bnd; try (fin; unfold list_post, over; repeat split; try ar; now intros (? & X); rewrite X in E).
  next. apply ob_tryb. eapply ob_weak; [apply (many_ob _ _ _ Hp); [exact Hw|lia]|].
  intros r s n k2 (b & -> & Lb & Hab & J0 & J1 & J2 & J3 & J4). destruct r as [vs|e].
  - peek Eb; bnd; try (fin; pose proof (ident_notnum b); unfold list_post, over; ar).
    destruct vs as [|v vs]; [fin; pose proof (ident_notnum b); unfold list_post, over; ar|].
    next. fin. assert (notnum b) by (unfold notnum; now rewrite Eb). unfold list_post, over; ar.
  - apply ob_done; [exact Lb|]. pose proof (ident_notnum b). unfold list_post, over. ar.
Qed.
Lemma list_of_n_ob name m a : 1 <= m <= 3 -> a <= top ->
  obp (st a) (parse_list_of_n_t (parse_float_t fo) m name) (parse_list_of_n (parse_float fo) m name) (fin (list_post 5 a)).
Proof.
  intros Hm L. unfold parse_list_of_n_t, parse_list_of_n.
  peek E; bnd; try (fin; unfold list_post, over; repeat split; try ar; now intros (? & X); rewrite X in E).
  next. apply ob_tryb. eapply ob_weak; [apply n_item; lia|].
  intros r s n k2 (b & -> & Lb & (J0 & J1) & J2). destruct r as [vs|e].
  - peek Eb; bnd; try (fin; pose proof (ident_notnum b); unfold list_post, over; ar).
    destruct vs as [|v vs]; [cbn in J2; lia|].
    next. fin. unfold list_post, over; ar.
  - apply ob_done; [exact Lb|]. destruct J1 as (-> & J1). pose proof (ident_notnum (a + 1)). unfold list_post, over. ar.
Qed.
Definition sub_post {A} (a : nat) (r : result A (error F)) (b n k : nat) : Prop :=
  (i0 < a -> k = 0) /\ k <= 3 /\
  match r with
  | Ok _ => a < b /\ (b <= i0 -> k = 0) /\ n <= 2 * (b - a) + 2
  | Err _ => a <= b /\ over b k /\ n <= 2 * (b - a) + 5
  end.
Lemma one_or_list_ob {A} (pc : PT A) p name : item 1 pc p -> forall a, a <= top ->
  obp (st a) (parse_one_or_list_t pc name) (parse_one_or_list p name) (fin (sub_post a)).
Proof.
  intros Hp a L. unfold parse_one_or_list_t, parse_one_or_list.
  peek E; bnd; try (fin; unfold sub_post, over; ar).
  all: try (apply ob_tryb; eapply ob_weak; [apply Hp, L|];
    intros r s1 n k1 (b & -> & Lb & J0 & J); destruct r as [x|e];
    [fin; unfold sub_post, over; ar|
     apply ob_done; [exact Lb|]; unfold sub_post, over; destruct J as (-> & J); pose proof (ident_notnum a); ar]).
  eapply ob_weak; [apply (list_ob 1 _ _ _ ltac:(lia) Hp), L|].
  intros r s n k1 (b & -> & Lb & J0 & J1 & J2 & J). apply ob_done; [exact Lb|].
  assert (lbr a) as X by (eexists; exact E).
  unfold sub_post, over in *. destruct r; [|destruct J as (J3 & J4 & J5 & J6); specialize (J6 X)]; ar.
Qed.
Lemma spectrum_ob a : a <= top -> obp (st a) (parse_spectrum_t fo) (parse_spectrum fo) (fin (sub_post a)).
Proof.
  intros L. unfold parse_spectrum_t, parse_spectrum.
  peek E; bnd; try (fin; unfold sub_post, over; ar).
  - next. fin. unfold sub_post, over; ar.
  - apply ob_tryb. eapply ob_weak; [apply (list_ob 1 _ _ _ ltac:(lia) float_item), L|].
    intros r s1 n k1 (b & -> & Lb & J0 & J1 & J2 & J). destruct r as [x|e].
    + destruct (negb _); [fin; unfold sub_post, over; ar|]. apply ob_bind, ob_lift. intros y _. fin. unfold sub_post, over; ar.
    + apply ob_done; [exact Lb|].
      assert (lbr a) as X by (eexists; exact E). unfold sub_post, over in *. destruct J as (J3 & J4 & J5 & J6); specialize (J6 X); ar.
Qed.

Definition param_post {A} (a : nat) (r : result A (error F)) (b n k : nat) : Prop :=
  (i0 < a -> k = 0) /\ k <= 3 /\
  match r with
  | Ok _ => a + 1 < b /\ (b <= i0 -> k = 0) /\ n <= 2 * (b - a) + 2
  | Err _ => a <= b /\ over b k /\ n <= 2 * (b - a) + 5
  end.
Lemma param_sub {A B} (mc : PT A) m (kc : A -> PT B) (k : A -> PM B) a (k1 k2 : nat) :
  (a = i0 -> k1 = 1) -> (a <> i0 -> k1 = 0) -> (a = i0 -> k2 = 1) -> (a <> i0 -> k2 = 0) -> a < top ->
  obp (st (a + 1)) mc m (fin (sub_post (a + 1))) ->
  (forall x b (Q : result B (error F) -> parser -> nat -> nat -> Prop), (forall y, Q (Ok y) (st b) 0 0) -> obp (st b) (kc x) (k x) Q) ->
  obp (st (a + 1)) (tryb mc kc) (tryb m k) (fun r s n j => fin (param_post a) r s (1 + (1 + n)) (k1 + (k2 + j))).
Proof.
  intros K1 K2 K3 K4 L Hm Hk. apply ob_tryb. eapply ob_weak; [exact Hm|].
  intros r s1 n j (b & -> & Lb & J0 & J1 & J). destruct r as [x|e].
  - apply Hk. intros y. apply ob_done; [exact Lb|]. unfold param_post. ar.
  - apply ob_done; [exact Lb|]. unfold param_post, over in *. ar.
Qed.
Ltac idx := repeat (apply ob_bind, ob_vidx; intros ?); apply ob_ret; auto.
Lemma item_sub {A} (pc : PT A) p : item 1 pc p -> forall a, a <= top -> obp (st a) pc p (fin (sub_post a)).
Proof.
  intros Hp a L. eapply ob_weak; [apply Hp, L|]. intros r s1 n k (b & -> & Lb & J0 & J). apply ob_done; [exact Lb|].
  unfold sub_post, over. destruct r; [ar|]. destruct J as (-> & J). pose proof (ident_notnum a). ar.
Qed.
Lemma list_sub {A} c (pc : PT A) p a : c <= 5 -> obp (st a) pc p (fin (list_post c a)) -> obp (st a) pc p (fin (sub_post a)).
Proof.
  intros Hc H. eapply ob_weak; [exact H|]. intros r s1 n k (b & -> & Lb & J0 & J1 & J2 & J). apply ob_done; [exact Lb|].
  unfold sub_post, over in *. destruct r; ar.
Qed.
Lemma param_ob ps a : a <= top -> obp (st a) (parse_param_list_t fo ps) (parse_param_list fo ps) (fin (param_post a)).
Proof.
  intros L. unfold parse_param_list_t, parse_param_list.
  peek E; bnd; try (fin; unfold param_post, over; ar).
  destruct (split_whitespace s) as [|ty [|var [|]]]; try (fin; unfold param_post, over; ar).
  repeat (destruct (str_eqb _ _); [next; apply param_sub; auto; [|intros; idx]|]).
  - apply one_or_list_ob; [apply int_item|lia].
  - apply one_or_list_ob; [apply float_item|lia].
  - eapply (list_sub 4); [lia|]. apply (list_ob 2); [lia|apply point2_item|lia].
  - eapply (list_sub 4); [lia|]. apply (list_ob 2); [lia|apply vector2_item|lia].
  - apply one_or_list_ob; [apply bool_item|lia].
  - apply one_or_list_ob; [apply string_item|lia].
  - eapply (list_sub 5); [lia|]. apply list_of_n_ob; lia.
  - eapply (list_sub 5); [lia|]. apply list_of_n_ob; lia.
  - apply spectrum_ob; lia.
  - eapply (list_sub 5); [lia|]. apply list_of_n_ob; lia.
  - apply item_sub; [apply string_item|lia].
  - fin. unfold param_post, over. ar.
Qed.

Definition params_post (a b n k : nat) : Prop :=
  (i0 < a -> k = 0) /\ k <= 3 /\ a <= b /\ over b k /\ n <= 3 * (b - a) + 5.
Lemma params_loop_ob fuel : forall ps a, a <= top ->
  obp (st a) (parse_param_lists_loop_t fo fuel ps) (parse_param_lists_loop fo fuel ps) (fin (fun _ => params_post a)).
Proof.
  induction fuel as [|fuel IH]; intros ps a L; [apply ob_fuel|].
  cbn [parse_param_lists_loop parse_param_lists_loop_t]. apply ob_bind. eapply ob_weak; [apply param_ob, L|].
  intros r s1 n k (b & -> & Lb & J0 & J1 & J). destruct r as [x|e].
  - eapply ob_weak; [apply IH, Lb|]. intros r s1 n1 k1 (c & -> & Lc & G0 & G1 & G2 & G3 & G4). apply ob_done; [exact Lc|].
    unfold params_post, over in *. ar.
  - fin. unfold params_post, over in *. ar.
Qed.
Lemma params_ob ps a : a <= top -> obp (st a) (parse_param_lists_t fo ps) (parse_param_lists fo ps)
  (fin (fun r b n k => (exists ps', r = Ok ps') /\ params_post a b n k)).
Proof.
  intros L. unfold parse_param_lists_t, parse_param_lists. apply ob_bind, ob_get. apply ob_bind. eapply ob_weak; [apply params_loop_ob, L|].
  intros r s1 n k (b & -> & Lb & J). fin. split; [eauto|]. rewrite !Nat.add_0_r. exact J.
Qed.

(** What follows the identifier of a directive. *)
Definition args_post {A} (a : nat) (r : result A (error F)) (b n k : nat) : Prop :=
  (i0 < a -> k = 0) /\ k <= 3 /\ n <= 3 * (b - a) + 5 /\
  match r with
  | Ok _ => a < b /\ over b k
  | Err _ => a <= b
  end.
Lemma struct_ob p a : a <= top -> obp (st a) (parse_struct_t fo p) (parse_struct fo p) (fin (args_post a)).
Proof.
  intros L. unfold parse_struct_t, parse_struct. apply ob_tryb. eapply ob_weak; [apply string_item, L|].
  intros r s1 n k (b & -> & Lb & J0 & J). destruct r as [x|e].
  - apply ob_tryb. eapply ob_weak; [apply params_ob, Lb|].
    intros r s1 n1 k1 (c & -> & Lc & (ps & ->) & G0 & G1 & G2 & G3 & G4). fin. unfold args_post, over in *. ar.
  - apply ob_done; [exact Lb|]. unfold args_post, over in *. ar.
Qed.
Lemma string_args a : a <= top -> obp (st a) parse_string_t parse_string (fin (args_post a)).
Proof.
  intros L. eapply ob_weak; [apply string_item, L|].
  intros r s1 n k (b & -> & Lb & J0 & J). apply ob_done; [exact Lb|]. unfold args_post, over. destruct r; ar.
Qed.
Lemma exactly_ob p what m a : a <= top -> obp (st a) (floats_exactly_t fo p what m) (floats_exactly fo p what m) (fin (args_post a)).
Proof.
  intros L. unfold floats_exactly_t, floats_exactly. apply ob_tryb.
  eapply ob_weak; [apply (many_ob 1 _ _ float_item); [lia|exact L]|].
  intros r s1 n k (b & -> & Lb & Hab & J0 & J1 & J2 & J3 & J4). pose proof (ident_notnum b). destruct r as [vs|e].
  - destruct (negb _); fin; unfold args_post, over in *; ar.
  - apply ob_done; [exact Lb|]. unfold args_post, over in *; ar.
Qed.

Lemma ident_dec a : {ident a} + {~ ident a}.
Proof.
  unfold ident. destruct (nth_error toks a) as [[p []]|]; [left; eauto|right; intros (? & ? & E); discriminate..].
Qed.

(** A directive without a block. *)
Definition plain_post {A} (a : nat) (r : result A (error F)) (b n k : nat) : Prop :=
  (i0 < a -> k = 0) /\ k <= 3 /\ a <= b /\ n <= 6 * (b - a) + 4 /\
  match r with
  | Ok _ => a < b /\ over b k /\ n + 1 <= 6 * (b - a)
  | Err _ => True
  end.
Definition quiet {A B} (kc : A -> PT B) (k : A -> PM B) : Prop :=
  forall x b (Q : result B (error F) -> parser -> nat -> nat -> Prop), (forall y, Q (Ok y) (st b) 0 0) -> obp (st b) (kc x) (k x) Q.
Lemma plain_sub {A B} (mc : PT A) m (kc : A -> PT B) (k : A -> PM B) a (k1 k2 : nat) :
  (a = i0 -> k1 = 1) -> (a <> i0 -> k1 = 0) -> (i0 <> a -> k2 = 0) -> k2 <= 2 -> a < top ->
  obp (st (a + 1)) mc m (fin (args_post (a + 1))) -> quiet kc k ->
  obp (st (a + 1)) (tryb mc kc) (tryb m k) (fun r s n j => fin (plain_post a) r s (1 + (2 + n)) (k1 + (k2 + j))).
Proof.
  intros K1 K2 K3 K4 L Hm Hk. apply ob_tryb. eapply ob_weak; [exact Hm|].
  intros r s1 n j (b & -> & Lb & J0 & J1 & J). destruct r as [x|e].
  - apply Hk. intros y. apply ob_done; [exact Lb|]. unfold plain_post, over in *. ar.
  - apply ob_done; [exact Lb|]. unfold plain_post, over in *. ar.
Qed.
Lemma identifier_args a : a <= top -> obp (st a) parse_identifier_t parse_identifier (fin (args_post a)).
Proof.
  intros L. eapply ob_weak; [apply identifier_item, L|].
  intros r s1 n k (b & -> & Lb & J0 & J). apply ob_done; [exact Lb|]. unfold args_post, over. destruct r; ar.
Qed.
Lemma ob_vec3 fl i s (Q : Vector3f F -> @parser F -> nat -> nat -> Prop) : (forall v, Q v s 0 0) -> obp s (vec3_at_t fl i) (vec3_at fl i) Q.
Proof. intros H. unfold vec3_at_t, vec3_at. do 3 (apply ob_bind, ob_vidx; intros ?). apply ob_ret, H. Qed.
Lemma ob_mat3 fl s (Q : Matrix3f F -> @parser F -> nat -> nat -> Prop) : (forall v, Q v s 0 0) -> obp s (mat3_of_t fl) (mat3_of fl) Q.
Proof. intros H. unfold mat3_of_t, mat3_of. do 9 (apply ob_bind, ob_vidx; intros ?). apply ob_ret, H. Qed.
Ltac silent := intros ? ? ? ?; repeat (apply ob_bind; first [apply ob_vidx | apply ob_vec3 | apply ob_mat3]; intros ?); apply ob_ret; auto.

Lemma predirective_ob a : a <= top -> obp (st a) (parse_predirective_t fo) (parse_predirective fo) (fin (plain_post a)).
Proof.
  intros L. unfold parse_predirective_t, parse_predirective. apply ob_tryb, ob_pos; [exact L|]. intros k1 K1 K2.
  destruct (nth_error toks a) as [t|] eqn:E; [|apply ob_done; [exact L|]; unfold plain_post, over; ar].
  pose proof (nth_lt _ _ E).
  apply ob_tryb. eapply ob_weak; [apply identifier_item, L|].
  intros r s1 n k2 (b & -> & Lb & J0 & J). destruct r as [id|e].
  2: { apply ob_done; [exact Lb|]. unfold plain_post, over. ar. }
  destruct J as (-> & -> & J1 & J2).
  destruct (str_eqb _ _); [fin; unfold plain_post, over; ar|].
  repeat (destruct (str_eqb _ _); [apply plain_sub; auto;
    [first [now apply exactly_ob | now apply struct_ob | now apply string_args | now apply identifier_args]|silent]|]).
  fin; unfold plain_post, over; ar.
Qed.

Definition worldbegin (a : nat) : Prop := exists p, nth_error toks a = Some (mkTok p (TIdent (s2l "WorldBegin"))).
Definition pres_post {A} (a : nat) (r : result A (error F)) (b n k : nat) : Prop :=
  (i0 < a -> k = 0) /\ (i0 = a -> k <= 4) /\ k <= 6 /\ a <= b /\ n <= 6 * (b - a) + 5 /\
  (~ ident a -> k <= 1 /\ (i0 <> a -> k = 0)) /\
  match r with
  | Ok _ => ident a /\ (b < i0 -> k = 0) /\ (i0 = b -> k <= 3) /\ (a = b -> k <= 1)
  | Err _ => True
  end.
Lemma pres_loop_ob fuel : forall ps a, a <= top ->
  obp (st a) (parse_predirectives_loop_t fo fuel ps) (parse_predirectives_loop fo fuel ps) (fin (pres_post a)).
Proof.
  induction fuel as [|fuel IH]; intros ps a L; [apply ob_fuel|].
  cbn [parse_predirectives_loop parse_predirectives_loop_t]. apply ob_tryb, ob_peek; [exact L|]. intros k1 K1 K2.
  destruct (nth_error toks a) as [[p ty]|] eqn:E; [|apply ob_done; [exact L|]; unfold pres_post; ar].
  cbn [tok_ty]. destruct ty; try (fin; unfold pres_post; ar).
  assert (ident a) as Ia by (eexists; eexists; exact E).
  destruct (str_eqb _ _); [fin; unfold pres_post; split; [ar|split; [ar|split; [ar|split; [ar|split; [ar|split; [ar|split; [exact Ia|ar]]]]]]]|].
  apply ob_tryb. eapply ob_weak; [apply predirective_ob, L|].
  intros r s1 n k2 (b & -> & Lb & J0 & J1 & J2 & J3 & J). destruct r as [d|e].
  - eapply ob_weak; [apply IH, Lb|]. intros r s1 n3 k3 (c & -> & Lc & G0 & G1 & G2 & G3 & G4 & G5 & G). apply ob_done; [exact Lc|].
    unfold over in *. destruct J as (J4 & (J5 & J6) & J7).
    destruct (ident_dec b) as [Ib|Ib]; unfold pres_post; (split; [ar|split; [ar|split; [ar|split; [ar|split; [ar|split; [now intros X; destruct (X Ia)|]]]]]]);
      destruct r; auto; (split; [exact Ia|]); [ar|tauto].
  - apply ob_done; [exact Lb|]. unfold pres_post. (split; [ar|split; [ar|split; [ar|split; [ar|split; [ar|split; [now intros X; destruct (X Ia)|ar]]]]]]).
Qed.

Definition block_post {A} (a : nat) (r : result A (error F)) (b n k : nat) : Prop :=
  (i0 < a -> k = 0) /\ (~ closer i0 -> (i0 = a -> k <= 4) /\ k <= 6) /\ a <= b /\ n <= 6 * (b - a) + 5 /\
  (~ ident a \/ closer a -> b = a /\ n = 1 /\ k <= 1 /\ (i0 <> a -> k = 0)) /\
  match r with Ok _ => closer b | Err _ => True end.
Definition body_post {A} (a : nat) (r : result A (error F)) (b n k : nat) : Prop :=
  (i0 < a -> k = 0) /\ (i0 = a -> k <= 3) /\ (~ closer i0 -> k <= 6) /\ a <= b /\ n <= 6 * (b - a) + 4 /\
  match r with
  | Ok _ => a < b /\ (k <= 3 /\ over b k /\ n + 1 <= 6 * (b - a) \/ closer b /\ n <= 6 * (b - a) + 2)
  | Err _ => True
  end.
Lemma plain_body {A} a (r : result A (error F)) b n k : plain_post a r b n k -> body_post a r b n k.
Proof. unfold plain_post, body_post, over. destruct r; [|ar]. intros H. split; [ar|]. split; [ar|]. split; [ar|]. split; [ar|]. split; [ar|]. split; [ar|]. left. ar. Qed.
Lemma block_sub {A B} (mc : PT A) m (kc : A -> PT B) (k : A -> PM B) a (k1 k2 : nat) :
  (a = i0 -> k1 = 1) -> (a <> i0 -> k1 = 0) -> (i0 <> a -> k2 = 0) -> k2 <= 2 -> a < top ->
  obp (st (a + 1)) mc m (fin (block_post (a + 1))) -> quiet kc k ->
  obp (st (a + 1)) (tryb mc kc) (tryb m k) (fun r s n j => fin (body_post a) r s (1 + (2 + n)) (k1 + (k2 + j))).
Proof.
  intros K1 K2 K3 K4 L Hm Hk. apply ob_tryb. eapply ob_weak; [exact Hm|].
  intros r s1 n j (b & -> & Lb & J0 & J1 & J2 & J3 & J4 & J5). destruct r as [x|e].
  - apply Hk. intros y. apply ob_done; [exact Lb|]. unfold body_post. split; [ar|]. split; [ar|]. split; [ar|]. split; [ar|]. split; [ar|]. split; [ar|]. right. split; [exact J5|ar].
  - apply ob_done; [exact Lb|]. unfold body_post. ar.
Qed.
Lemma texture_ob p : forall a, a <= top -> obp (st a)
  (name <-? parse_string_t ;; ty <-? parse_string_t ;; class <-? parse_string_t ;; ps <-? parse_param_lists_t fo ps_empty ;;
   ret (Ok (DTexture (mkTS name ty class p ps))))
  (name <-? parse_string ;; ty <-? parse_string ;; class <-? parse_string ;; ps <-? parse_param_lists fo ps_empty ;;
   ret (Ok (DTexture (mkTS name ty class p ps)))) (fin (args_post a)).
Proof.
  intros a L. 
  apply ob_tryb. eapply ob_weak; [apply string_item, L|].
  intros r s1 n k (b & -> & Lb & J0 & J). destruct r as [x|e]; [|apply ob_done; [exact Lb|]; unfold args_post, over in *; ar].
  apply ob_tryb. eapply ob_weak; [apply string_item, Lb|].
  intros r s1 n1 k1 (b1 & -> & Lb1 & J1 & J2). destruct r as [x1|e]; [|apply ob_done; [exact Lb1|]; unfold args_post, over in *; ar].
  apply ob_tryb. eapply ob_weak; [apply string_item, Lb1|].
  intros r s1 n2 k2 (b2 & -> & Lb2 & J3 & J4). destruct r as [x2|e]; [|apply ob_done; [exact Lb2|]; unfold args_post, over in *; ar].
  apply ob_tryb. eapply ob_weak; [apply params_ob, Lb2|].
  intros r s1 n3 k3 (c & -> & Lc & (ps & ->) & G0 & G1 & G2 & G3 & G4). fin. unfold args_post, over in *. ar.
Qed.
Lemma plain_as_body {A} (mc : PT A) m a k1 k2 :
  obp (st (a + 1)) mc m (fun r s n j => fin (plain_post a) r s (1 + (2 + n)) (k1 + (k2 + j))) ->
  obp (st (a + 1)) mc m (fun r s n j => fin (body_post a) r s (1 + (2 + n)) (k1 + (k2 + j))).
Proof.
  intros H. eapply ob_weak; [exact H|]. intros r s n j (b & -> & Lb & J). apply ob_done; [exact Lb|]. now apply plain_body.
Qed.
Lemma args_plain {A} (mc : PT A) m a k1 k2 :
  (a = i0 -> k1 = 1) -> (a <> i0 -> k1 = 0) -> (i0 <> a -> k2 = 0) -> k2 <= 2 -> a < top ->
  obp (st (a + 1)) mc m (fin (args_post (a + 1))) ->
  obp (st (a + 1)) mc m (fun r s n j => fin (plain_post a) r s (1 + (2 + n)) (k1 + (k2 + j))).
Proof.
  intros K1 K2 K3 K4 L Hm. eapply ob_weak; [exact Hm|].
  intros r s1 n j (b & -> & Lb & J0 & J1 & J). apply ob_done; [exact Lb|]. unfold plain_post, over in *. destruct r; ar.
Qed.
Lemma body_ob bc blk : (forall a, a <= top -> obp (st a) bc blk (fin (block_post a))) -> forall a, a <= top ->
  obp (st a) (parse_directive_body_t fo bc) (parse_directive_body fo blk) (fin (body_post a)).
Proof.
  intros Hb a L. unfold parse_directive_body_t, parse_directive_body. apply ob_tryb, ob_pos; [exact L|]. intros k1 K1 K2.
  destruct (nth_error toks a) as [t|] eqn:E; [|apply ob_done; [exact L|]; unfold body_post; ar].
  pose proof (nth_lt _ _ E).
  apply ob_tryb. eapply ob_weak; [apply identifier_item, L|].
  intros r s1 n k2 (b & -> & Lb & J0 & J). destruct r as [id|e].
  2: { apply ob_done; [exact Lb|]. unfold body_post. ar. }
  destruct J as (-> & -> & J1 & J2).
  do 4 (destruct (str_eqb _ _); [apply plain_as_body, plain_sub; auto; [now apply struct_ob|silent]|]).
  do 3 (destruct (str_eqb _ _); [apply block_sub; auto; silent|]).
  destruct (str_eqb _ _); [apply plain_as_body, plain_sub; auto; [now apply string_args|silent]|].
  destruct (str_eqb _ _); [apply plain_as_body, args_plain; auto; now apply texture_ob|].
  fin; unfold body_post, over; ar.
Qed.
Lemma block_loop_ob fuel : forall ds a, a <= top ->
  obp (st a) (parse_directives_loop_t fo fuel ds) (parse_directives_loop fo fuel ds) (fin (block_post a)).
Proof.
  induction fuel as [|fuel IH]; intros ds a L; [apply ob_fuel|].
  cbn [parse_directives_loop parse_directives_loop_t]. apply ob_tryb, ob_peek; [exact L|]. intros k1 K1 K2.
  destruct (nth_error toks a) as [[p ty]|] eqn:E; [|apply ob_done; [exact L|]; unfold block_post; ar].
  cbn [tok_ty]. destruct ty; try (fin; unfold block_post; ar).
  destruct (is_closer s) eqn:C.
  { fin. unfold block_post. split; [ar|split; [ar|split; [ar|split; [ar|split; [ar|]]]]]. now exists p, s. }
  apply ob_tryb. eapply ob_weak; [apply body_ob; [intros; now apply IH|exact L]|].
  assert (ident a) as Ia by (eexists; eexists; exact E).
  assert (~ closer a) as Ca by (intros (p' & s' & E' & C'); congruence).
  intros r s1 n k2 (b & -> & Lb & J0 & J1 & J2 & J3 & J4 & J). destruct r as [d|e].
  - eapply ob_weak; [apply IH, Lb|]. intros r s1 n3 k3 (c & -> & Lc & G0 & G1 & G2 & G3 & G4 & G). apply ob_done; [exact Lc|].
    unfold block_post. destruct J as (J5 & [(J6 & (J7 & J8) & J9)|(J6 & J7)]).
    + assert (~ closer i0 -> k1 + (k2 + k3) <= 6).
      { intros X. specialize (G1 X). destruct (ident_dec b) as [Ib|Ib]; [specialize (J8 Ib)|specialize (G4 (or_introl Ib))]; lia. }
      split; [ar|split; [ar|split; [ar|split; [ar|split; [tauto|exact G]]]]].
    + specialize (G4 (or_intror J6)). assert (~ closer i0 -> i0 <> b) by (intros X ->; auto).
      split; [ar|split; [ar|split; [ar|split; [ar|split; [tauto|exact G]]]]].
  - apply ob_done; [exact Lb|]. unfold block_post. split; [ar|split; [ar|split; [ar|split; [ar|split; [tauto|exact I]]]]].
Qed.
Lemma directive_ob a : a <= top -> obp (st a) (parse_directive_t fo) (parse_directive fo) (fin (body_post a)).
Proof.
  intros L. apply body_ob; [|exact L]. intros b Lb. unfold parse_directives_t, parse_directives. apply ob_bind, ob_get. now apply block_loop_ob.
Qed.
Lemma tokens_ob : obp (st 0) (parse_tokens_m_t fo) (parse_tokens_m fo) (fun r s n k => n <= 6 * top + 10 /\ (~ closer i0 -> k <= 6)).
Proof.
  unfold parse_tokens_m_t, parse_tokens_m. apply ob_tryb. unfold parse_predirectives_t, parse_predirectives.
  apply ob_bind, ob_get. eapply ob_weak; [apply pres_loop_ob; lia|].
  intros r s1 n k (b & -> & Lb & J0 & J1 & J2 & J3 & J4 & J5 & J). destruct r as [ps|e]; [|ar].
  apply ob_tryb. eapply ob_weak; [apply directive_ob, Lb|].
  intros r s1 n1 k1 (c & -> & Lc & G0 & G1 & G2 & G3 & G4 & G). destruct r as [d|e].
  - apply ob_ret. ar.
  - ar.
Qed.
End Par.
