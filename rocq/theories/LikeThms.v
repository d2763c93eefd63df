(** Consequences of [LikeProofs]. *)
From Verif Require Import Base TokModel ParModel SceneSpec ParProofs LikeSpec LikeProofs.

Lemma header_unique s ty name ty' name' : header s ty name -> header s ty' name' -> ty = ty' /\ name = name'.
Proof. intros H H'. apply header_split in H, H'. rewrite H in H'. now injection H'. Qed.
Lemma header_not_true s ty name : header s ty name -> s <> s2l "true" /\ s <> s2l "false".
Proof. intros H. apply header_split in H. split; intros ->; vm_compute in H; discriminate. Qed.
Lemma exch_same (Rn : str -> str -> Prop) (HR : forall n, Rn n n) s : exchangeable Rn s s.
Proof. repeat split; try tauto; intros ty name H; exists name; auto. Qed.
Lemma exch_plain (Rn : str -> str -> Prop) s t : plain_string s -> plain_string t -> exchangeable Rn s t.
Proof.
  intros (A1 & A2 & A3) (B1 & B2 & B3). repeat split; try tauto; try (intros ty name H; exfalso; now apply (A3 ty name)).
  intros ty name H; exfalso; now apply (B3 ty name).
Qed.
Lemma exch_header (Rn : str -> str -> Prop) s t ty n n' : header s ty n -> header t ty n' -> Rn n n' -> exchangeable Rn s t.
Proof.
  intros H H' R. destruct (header_not_true _ _ _ H), (header_not_true _ _ _ H'). repeat split; try tauto.
  - intros ty0 n0 X. destruct (header_unique _ _ _ _ _ H X) as [<- <-]. eauto.
  - intros ty0 n0 X. destruct (header_unique _ _ _ _ _ H' X) as [<- <-]. eauto.
Qed.

Section Thms.
Context {F G : Type} (fo : FloatOps F) (go : FloatOps G).
Lemma texts_like cc cc' chk chk' (Rp : Pos -> Pos -> Prop) (Ri : Z -> Z -> Prop) (Rf : F -> G -> Prop) (Rs Rn : str -> str -> Prop) input input' ts ts' :
  (forall i j, Ri i j -> Rf (f_of_isize fo i) (f_of_isize go j)) -> (forall s t, Rs s t -> exchangeable Rn s t) ->
  tokenize fo cc chk input = Done (Ok ts) -> tokenize go cc' chk' input' = Done (Ok ts') -> Forall2 (like_tok Rp Ri Rf Rs) ts ts' ->
  like_outcome Rp Ri Rf Rs Rn (parse fo cc chk input) (parse go cc' chk' input').
Proof. intros Hi Hs H H' L. unfold parse. rewrite H, H'. now apply parse_tokens_like. Qed.
Lemma numbers_do_not_matter ts ts' : Forall2 (like_tok any any any eq) ts ts' ->
  like_outcome any any any eq eq (parse_tokens fo ts) (parse_tokens go ts').
Proof. apply parse_tokens_like; [intros; exact I|]. intros s t <-. now apply exch_same. Qed.
End Thms.
Section Names.
Context {F : Type} (fo : FloatOps F).
Lemma names_do_not_matter ts ts' : Forall2 (like_tok eq eq eq (fun s t => s = t \/ plain_string s /\ plain_string t)) ts ts' ->
  like_outcome eq eq eq (fun s t => s = t \/ plain_string s /\ plain_string t) eq (parse_tokens fo ts) (parse_tokens fo ts').
Proof.
  apply parse_tokens_like; [intros i j <-; reflexivity|]. intros s t [<-|[A B]]; [now apply exch_same|now apply exch_plain].
Qed.
Lemma parameter_names_do_not_matter ts ts' :
  Forall2 (like_tok eq eq eq (fun s t => s = t \/ exists ty n n', header s ty n /\ header t ty n')) ts ts' ->
  like_outcome eq eq eq (fun s t => s = t \/ exists ty n n', header s ty n /\ header t ty n') any (parse_tokens fo ts) (parse_tokens fo ts').
Proof.
  apply parse_tokens_like; [intros i j <-; reflexivity|]. intros s t [<-|(ty & n & n' & A & B)]; [now apply exch_same|].
  now apply (exch_header _ _ _ ty n n').
Qed.
Lemma accepted_alike Rp Ri (Rf : F -> F -> Prop) Rs Rn x y : like_outcome Rp Ri Rf Rs Rn x y ->
  ((exists a, x = Done (Ok a)) <-> (exists b, y = Done (Ok b))).
Proof. destruct x as [[a|e]| |], y as [[b|e']| |]; cbn; intros H; try contradiction; split; intros [z Z]; try discriminate Z; eauto. Qed.
End Names.
