(** Refutations and example derivations used in PropsScene.v. *)
From Coq Require Import Sorted.
From Verif Require Import Base TokModel ParModel LexSpec SceneSpec SceneObs TokProofs LexProofs LexThms ParProofs DirProofs
  TextThms SceneThms KindProofs SceneProps PropsLexLemmas.

(** Tokens of a text with symbolic floats and ASCII character classes. *)
Definition toks_of (s : str) : list (Token sfloat) :=
  match tokenize fo_sym cc_ascii true s with Done (Ok t) => t | _ => [] end.
Definition id0 (s : str) : Token sfloat := mkTok pos0 (TIdent s).
Definition st0 (s : str) : Token sfloat := mkTok pos0 (TStr s).
Definition int0 (z : Z) : Token sfloat := mkTok pos0 (TInt z).

Section L.
Context {F : Type} (fo : FloatOps F).
Lemma scene_unambiguous s x y : scene fo s x -> scene fo s y -> x = y.
Proof. intros H1 H2. apply parse_tokens_iff in H1, H2. congruence. Qed.
Lemma every_result_covered s x : parse_tokens fo s = Done (Ok x) ->
  Forall (fun d => exists a t u, s = a ++ t /\ predirective fo t d u) (fst x) /\ Forall (written fo s) (nodes (snd x)).
Proof. intros H. split; [now apply pre_written|now apply params_written]. Qed.
Lemma three_empty s x ps : parse_tokens fo s = Done (Ok x) -> all_params x ps ->
  ps_point3fs ps = [] /\ ps_vector3fs ps = [] /\ ps_normal3fs ps = [].
Proof. intros H Hp. pose proof (all_params_wf fo _ _ _ H Hp) as Hw. unfold wf_params in Hw. tauto. Qed.
Lemma empty_eof cc chk : parse fo cc chk [] = Done (Err EEof).
Proof. reflexivity. Qed.
Lemma malformed_reported s s1 : at_param fo s s1 -> ~ quiet s1 -> (forall i r, ~ param fo s1 i r) -> (forall r, ~ dropped fo s1 r) ->
  exists e, parse_tokens fo s = Done (Err e).
Proof.
  intros H Hq Hp Hd. destruct (parse_tokens_no_panic fo s) as [[x|e] E]; [|eauto].
  destruct (malformed_dropped fo _ _ _ H Hq Hp E) as [r Hr]. now elim (Hd r).
Qed.
End L.

(** ** Refutations *)
Definition lost_text : str := s2l "WorldBegin AttributeBegin AttributeEnd Shape ""sphere"" WorldEnd".
Lemma directives_lost_refuted : exists a p mid q x t,
  parse_tokens fo_sym (a ++ mkTok p (TIdent (s2l "WorldBegin")) :: mid ++ [mkTok q (TIdent (s2l "WorldEnd"))]) = Done (Ok x) /\
  Forall (fun t => ~ is_kw (s2l "WorldBegin") t /\ ~ is_kw (s2l "WorldEnd") t) mid /\
  In t mid /\ is_kw (s2l "Shape") t /\ ~ In (tok_pos t) (map dir_pos (nodes (snd x))).
Proof.
  exists [], (mkPos 1 1), (firstn 4 (skipn 1 (toks_of lost_text))), (mkPos 1 57).
  eexists. exists (mkTok (mkPos 1 40) (TIdent (s2l "Shape"))).
  split; [vm_compute; reflexivity|]. split; [|split; [|split]].
  - vm_compute. repeat constructor; discriminate.
  - vm_compute. tauto.
  - reflexivity.
  - vm_compute. intuition discriminate.
Qed.
Lemma closers_match_refuted : exists s x p ch,
  parse_tokens fo_sym s = Done (Ok x) /\ In (DAttribute p ch) (nodes (snd x)) /\ Forall (fun t => ~ is_kw (s2l "AttributeEnd") t) s /\
  Forall (fun t => ~ is_kw (s2l "WorldEnd") t) s.
Proof.
  exists (toks_of (s2l "WorldBegin AttributeBegin TransformEnd")). do 3 eexists. split; [vm_compute; reflexivity|]. split; [|split].
  - right. left. reflexivity.
  - vm_compute. repeat constructor; discriminate.
  - vm_compute. repeat constructor; discriminate.
Qed.

(** ** Example derivations *)
Lemma ex_reaches (s : list (Token sfloat)) : reaches fo_sym (wb_tok pos0 :: s) s.
Proof. eapply re_world. apply pds_world. Qed.
Lemma ex_header : header (s2l "integer n") (s2l "integer") (s2l "n").
Proof.
  split; [|split]; try (split; [discriminate|repeat constructor]).
  exists [], [32%N], []. repeat split; try constructor; try constructor. discriminate.
Qed.
Lemma ex_param z r : param fo_sym (st0 (s2l "integer n") :: int0 z :: r) (mkPI (s2l "n") pos0 (VInts [z])) r.
Proof. econstructor; [exact ex_header|]. constructor. apply ol_one. constructor. Qed.
Lemma ex_dropped r : quiet r -> dropped fo_sym (st0 (s2l "integer n") :: r) r.
Proof. intros H. eapply dr_no_value; [exact ex_header|left; reflexivity|exact H]. Qed.
Lemma ex_head (s : list (Token sfloat)) : dir_head (id0 (s2l "Shape") :: st0 (s2l "sphere") :: s) s.
Proof. eapply dh_struct. constructor. Qed.
Lemma ex_at_param s1 : at_param fo_sym (wb_tok pos0 :: id0 (s2l "Shape") :: st0 (s2l "sphere") :: s1) s1.
Proof. eapply ap_dir; [apply ex_reaches|apply ex_head|apply sp_nil]. Qed.

(** A parameter without a value vanishes. *)
Lemma malformed_dropped_refuted : exists s s1 x, at_param fo_sym s s1 /\ ~ quiet s1 /\ (forall i r, ~ param fo_sym s1 i r) /\
  parse_tokens fo_sym s = Done (Ok x).
Proof.
  set (s1 := [st0 (s2l "integer n"); id0 (s2l "WorldEnd")]).
  exists (wb_tok pos0 :: id0 (s2l "Shape") :: st0 (s2l "sphere") :: s1), s1. eexists.
  split; [apply ex_at_param|]. split; [intros []|]. split; [|vm_compute; reflexivity].
  intros i r H. eapply param_not_dropped; [exact H|]. apply ex_dropped. exact I.
Qed.
Lemma header_blank h ty name : header h ty name -> exists c, In c h /\ is_whitespace c = true.
Proof.
  intros (_ & _ & a & [|c b] & d & _ & Hb & Hn & _ & ->); [congruence|]. exists c. inversion Hb; subst. split; [|assumption].
  rewrite !in_app_iff. right. right. left. now left.
Qed.
(** A header of one word has no type. *)
Lemma ex_unknown ty name : header (s2l "point3") ty name -> ~ known ty.
Proof.
  intros H. destruct (header_blank _ _ _ H) as (c & Hi & Hc). vm_compute in Hi. intuition (subst; discriminate).
Qed.
Lemma words_unique a b ty name a' b' c' ty' name' c : blanks a -> blanks a' -> word ty -> word ty' -> blanks b -> blanks b' -> b <> [] -> b' <> [] ->
  a ++ ty ++ b ++ name ++ c = a' ++ ty' ++ b' ++ name' ++ c' -> ty = ty'.
Proof.
  assert (X : forall (P : N -> bool) (u v u' v' : str), Forall (fun c => P c = true) u -> Forall (fun c => P c = true) u' ->
     (forall c l, v = c :: l -> P c = false) -> (forall c l, v' = c :: l -> P c = false) -> u ++ v = u' ++ v' -> u = u' /\ v = v').
  { intros P u. induction u as [|x u IH]; intros v [|x' u'] v' Hu Hu' Hv Hv' E; cbn in E.
    - auto.
    - inversion Hu'; subst. rewrite (Hv _ _ eq_refl) in H1. discriminate.
    - inversion Hu; subst. rewrite (Hv' _ _ eq_refl) in H1. discriminate.
    - injection E as -> E. inversion Hu; inversion Hu'; subst. destruct (IH v u' v') as [-> ->]; auto. }
  intros Ha Ha' [Hn Ht] [Hn' Ht'] Hb Hb' Hb1 Hb1' E.
  destruct ty as [|t0 ty]; [congruence|]. destruct ty' as [|t0' ty']; [congruence|].
  destruct (X is_whitespace a ((t0 :: ty) ++ b ++ name ++ c) a' ((t0' :: ty') ++ b' ++ name' ++ c') Ha Ha') as [_ E2].
  - intros x l [= <- _]. now inversion Ht.
  - intros x l [= <- _]. now inversion Ht'.
  - exact E.
  - destruct b as [|b0 b]; [congruence|]. destruct b' as [|b0' b']; [congruence|].
    destruct (X (fun c => negb (is_whitespace c)) (t0 :: ty) ((b0 :: b) ++ name ++ c) (t0' :: ty') ((b0' :: b') ++ name' ++ c')) as [-> _]; auto.
    + eapply Forall_impl; [|exact Ht]. cbn. intros ? ->. reflexivity.
    + eapply Forall_impl; [|exact Ht']. cbn. intros ? ->. reflexivity.
    + intros x l [= <- _]. inversion Hb as [|? ? H1]. now rewrite H1.
    + intros x l [= <- _]. inversion Hb' as [|? ? H1]. now rewrite H1.
Qed.
Lemma header_ty h ty name ty' name' : header h ty name -> header h ty' name' -> ty = ty'.
Proof.
  intros (H1 & H2 & a & b & c & Ha & Hb & Hn & Hc & E) (H1' & H2' & a' & b' & c' & Ha' & Hb' & Hn' & Hc' & E').
  rewrite E in E'. eapply words_unique; [| | | | | | | |exact E']; eassumption.
Qed.
Lemma ex_unknown3 ty name : header (s2l "point3 p") ty name -> ~ known ty.
Proof.
  intros H K. assert (E : ty = s2l "point3").
  { apply (header_ty _ _ _ _ (s2l "p") H). split; [|split]; try (split; [discriminate|repeat constructor]).
    exists [], [32%N], []. repeat split; try constructor; try constructor. discriminate. }
  subst. vm_compute in K. intuition discriminate.
Qed.

Definition ex20_text : str := s2l "WorldBegin Shape ""disk"" ""float r"" [1 2] ""rgb L"" [1 2 3] WorldEnd".
Definition ex20_result := match parse_tokens fo_sym (toks_of ex20_text) with Done (Ok x) => x | _ => ([], DWorld pos0 []) end.
Definition ex20_params := match dir_params (hd (DWorld pos0 []) (skipn 1 (nodes (snd ex20_result)))) with Some ps => ps | None => ps_empty end.
Lemma ex20 : parse_tokens fo_sym (toks_of ex20_text) = Done (Ok ex20_result) /\
  all_params ex20_result ex20_params /\ length (ps_floats ex20_params) = 1 /\ length (ps_spectra ex20_params) = 1.
Proof.
  split; [vm_compute; reflexivity|]. split; [|split; vm_compute; reflexivity].
  right. exists (hd (DWorld pos0 []) (skipn 1 (nodes (snd ex20_result)))). split; vm_compute; [|reflexivity]. right. left. reflexivity.
Qed.
