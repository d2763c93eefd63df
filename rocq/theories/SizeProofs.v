(** Proofs about C101: a scene is no larger than its text. *)
From Coq Require Import Lia.
From Verif Require Import Base TokModel ParModel LexSpec SceneSpec SizeSpec SynErrSpec LexProofs LexThms DirProofs TextThms SceneThms SynErrProofs StableThms.

Section S.
Context {F : Type} (fo : FloatOps F).
Notation toks := (list (Token F)).
Notation tsize := (sum (@token_size F)).

Lemma sum_app {A} (f : A -> nat) a b : sum f (a ++ b) = sum f a + sum f b.
Proof. unfold sum. now rewrite map_app, list_sum_app. Qed.
Lemma sum_cons {A} (f : A -> nat) a b : sum f (a :: b) = f a + sum f b.
Proof. reflexivity. Qed.

Lemma ts_str p w : token_size (F := F) (mkTok p (TStr w)) = 1 + length w.
Proof. reflexivity. Qed.
Lemma ts_id p w : token_size (F := F) (mkTok p (TIdent w)) = length w.
Proof. reflexivity. Qed.

(** ** Values *)
Lemma items_size {T} (item : toks -> T -> toks -> Prop) (val : T -> nat) :
  (forall s v r, item s v r -> val v + tsize r <= tsize s) -> forall s l r, items item s l r -> sum val l + tsize r <= tsize s.
Proof.
  intros Hi. induction 1 as [s v r H|s v s' vs r H H' IH]; apply Hi in H; rewrite ?sum_cons; unfold sum at 1; cbn; [lia|].
  change (list_sum (map val vs)) with (sum val vs). lia.
Qed.
Lemma bracketed_size {T} (item : toks -> T -> toks -> Prop) (val : T -> nat) :
  (forall s v r, item s v r -> val v + tsize r <= tsize s) -> forall s l r, bracketed item s l r -> sum val l + tsize r <= tsize s.
Proof.
  intros Hi s l r [p s0 vs q r0 H]. apply (items_size item val Hi) in H. rewrite !sum_cons in *. lia.
Qed.
Lemma one_size {T} (item : toks -> T -> toks -> Prop) (val : T -> nat) :
  (forall s v r, item s v r -> val v + tsize r <= tsize s) -> forall s l r, one_or_list item s l r -> sum val l + tsize r <= tsize s.
Proof.
  intros Hi s l r [s0 v r0 H|s0 vs r0 H]; [apply Hi in H; rewrite sum_cons; unfold sum at 1; cbn; lia|].
  now apply (bracketed_size item val Hi).
Qed.
Lemma int_size s v r : int_item s v r -> 1 + tsize r <= tsize s.
Proof. intros []. rewrite !sum_cons. cbn. lia. Qed.
Lemma str_item_size s v r : str_item (F := F) s v r -> str_size v + tsize r <= tsize s.
Proof. intros []. rewrite !sum_cons. cbn. lia. Qed.
Lemma bool_size s v r : bool_item (F := F) s v r -> 1 + tsize r <= tsize s.
Proof. intros []; rewrite !sum_cons; cbn; lia. Qed.
Lemma float_size s v r : float_item fo s v r -> 1 + tsize r <= tsize s.
Proof. intros []; rewrite !sum_cons; cbn; lia. Qed.
Lemma point2_size s v r : point2_item fo s v r -> 2 + tsize r <= tsize s.
Proof. intros [? ? ? ? ? H1 H2]. apply float_size in H1. apply float_size in H2. lia. Qed.
Lemma vector2_size s v r : vector2_item fo s v r -> 2 + tsize r <= tsize s.
Proof. intros [? ? ? ? ? H1 H2]. apply float_size in H1. apply float_size in H2. lia. Qed.

Definition val_size (v : @pval F) : nat :=
  match v with
  | VInts l => sum (fun _ => 1) l | VFloats l => sum (fun _ => 1) l | VPoints l => sum (fun _ => 2) l
  | VVectors l => sum (fun _ => 2) l | VBools l => sum (fun _ => 1) l | VStrings l => sum str_size l
  | VSpectrum s => spectrum_size s | VTexture s => str_size s
  end.
Lemma sum_one {A} (l : list A) : sum (fun _ => 1) l = length l.
Proof. induction l as [|a l IH]; [reflexivity|]. rewrite sum_cons, IH. reflexivity. Qed.
Lemma unpair_length {A} (l : list (A * A)) : length (unpair l) = 2 * length l.
Proof. induction l as [|[a b] l IH]; [reflexivity|]. cbn. rewrite IH. lia. Qed.
Lemma value_size ty s v r : value fo ty s v r -> val_size v + tsize r <= tsize s.
Proof.
  intros [s0 l r0 H|s0 l r0 H|s0 l r0 H|s0 l r0 H|s0 l r0 H|s0 l r0 H|s0 a b c r0 H|s0 a b c r0 H|s0 l r0 H|s0 w r0 H|s0 a b r0 H|s0 w r0 H];
    cbn [val_size].
  - now apply (one_size int_item (fun _ => 1) int_size).
  - now apply (one_size _ (fun _ => 1) float_size).
  - now apply (bracketed_size _ (fun _ => 2) point2_size).
  - now apply (bracketed_size _ (fun _ => 2) vector2_size).
  - now apply (one_size _ (fun _ => 1) bool_size).
  - now apply (one_size _ str_size str_item_size).
  - now apply (bracketed_size _ (fun _ => 1) float_size) in H.
  - now apply (bracketed_size _ (fun _ => 1) float_size) in H.
  - apply (bracketed_size _ (fun _ => 1) float_size) in H. rewrite sum_one, unpair_length in H. exact H.
  - now apply str_item_size.
  - now apply (bracketed_size _ (fun _ => 1) float_size) in H.
  - now apply str_item_size.
Qed.
Definition item_size (i : @pitem F) : nat := 1 + length (pi_name i) + val_size (pi_val i).
Lemma param_item_size s i r : param fo s i r -> item_size i + tsize r <= tsize s.
Proof.
  intros [p h ty name s0 v r0 Hh Hv]. apply value_size in Hv. destruct Hh as (_ & _ & a & b & c & _ & _ & _ & _ & ->).
  rewrite sum_cons. unfold item_size. cbn [pi_name pi_val]. rewrite ts_str, !app_length. lia.
Qed.
Lemma cf_suffix_size (c r : toks) : tsize r <= tsize (c ++ r).
Proof. rewrite sum_app. lia. Qed.
Lemma params_items_size s l r : params fo s l r -> sum item_size l + tsize r <= tsize s.
Proof.
  induction 1 as [s Hq|s r Hd|s i s' l r Hp H IH].
  - cbn. lia.
  - apply cf_dropped in Hd as (c & -> & _). apply cf_suffix_size.
  - apply param_item_size in Hp. rewrite sum_cons. lia.
Qed.
Lemma pick_size {T} (val : T -> nat) (sel : @pval F -> option (list T)) l :
  params_size val (pick sel l) =
  sum (fun i => match sel (pi_val i) with Some v => 1 + length (pi_name i) + sum val v | None => 0 end) l.
Proof.
  induction l as [|i l IH]; [reflexivity|]. unfold pick, params_size in *. cbn [flat_map]. rewrite sum_app, IH, sum_cons. f_equal.
  destruct (sel (pi_val i)); [|reflexivity]. rewrite sum_cons. change (sum _ (@nil _)) with 0. apply Nat.add_0_r.
Qed.
Lemma collect_size (l : list (@pitem F)) : set_size (collect l) = sum item_size l.
Proof.
  unfold set_size, collect. cbn [ps_bools ps_ints ps_floats ps_point2fs ps_vector2fs ps_point3fs ps_vector3fs ps_normal3fs ps_spectra ps_strings ps_textures].
  rewrite !pick_size. induction l as [|i l IH]; [reflexivity|]. rewrite !sum_cons. rewrite <- IH. clear IH. unfold item_size.
  destruct (pi_val i); cbn [val_size]; rewrite ?sum_cons; change (sum _ (@nil _)) with 0; lia.
Qed.

(** ** Directives *)
Lemma struct_dir_size id mkD (ds : DirectiveStruct F) : struct_kw id mkD -> dir_size (mkD ds) = struct_size ds /\ 1 <= length id.
Proof. intros []; (split; [reflexivity|cbn; lia]). Qed.
Lemma block_dir_size id mkB p (ds : list (Directive F)) : block_kw id mkB -> dir_size (mkB p ds) = 1 + sum dir_size ds /\ 1 <= length id.
Proof. intros []; (split; [reflexivity|cbn; lia]). Qed.
Scheme directive_mut0 := Minimality for directive Sort Prop with directives_mut0 := Minimality for directives Sort Prop.
Lemma directive_size s d r : directive fo s d r -> dir_size d + tsize r <= tsize s.
Proof.
  apply (directive_mut0 F fo (fun s d r => dir_size d + tsize r <= tsize s) (fun s ds r => sum dir_size ds + tsize r <= tsize s)).
  - intros p id mkD q ty s0 l r0 Hk Hp. destruct (struct_dir_size _ _ (mkDS ty p (collect l)) Hk) as (-> & Hl).
    apply params_items_size in Hp. unfold struct_size. cbn [ds_ty ds_params]. rewrite collect_size, !sum_cons, ts_str, ts_id. unfold str_size. lia.
  - intros p id mkB s0 ds r0 Hk _ IH. destruct (block_dir_size _ _ p ds Hk) as (-> & Hl). rewrite sum_cons, ts_id. lia.
  - intros p q path r0. rewrite !sum_cons, ts_str, ts_id. cbn [dir_size]. unfold str_size. cbn [length s2l]. cbn. lia.
  - intros p q1 name q2 ty q3 class s0 l r0 Hp. apply params_items_size in Hp. cbn [dir_size ts_name ts_ty ts_class ts_params].
    rewrite collect_size, !sum_cons, !ts_str, ts_id. unfold str_size. change (length (s2l "Texture")) with 7. lia.
  - intros p id s0 _. cbn. lia.
  - intros s0 d0 s' ds r0 _ IH _ IH'. rewrite sum_cons. lia.
Qed.
Lemma items_count s l r : items (float_item fo) s l r -> length l + tsize r <= tsize s.
Proof. intros H. apply (items_size _ (fun _ => 1) float_size) in H. now rewrite sum_one in H. Qed.
Lemma predirective_size s d r : predirective fo s d r -> pre_size d + tsize r <= tsize s.
Proof.
  intros [p r0|p id fl d0 s0 r0 Hk Hi Hr|p id mkP q w r0 Hk|p q w r0|p id mkP q ty s0 l r0 Hk Hp].
  - rewrite sum_cons, ts_id. cbn. lia.
  - apply items_count in Hi. rewrite sum_cons, ts_id. destruct Hk; cbn [pre_size length] in *;
      match goal with |- context [length (s2l ?k)] => let n := eval compute in (length (s2l k)) in change (length (s2l k)) with n end; lia.
  - rewrite !sum_cons, ts_str, ts_id. assert (E : pre_size (mkP p w) = 1 + str_size w /\ 1 <= length id) by (destruct Hk; (split; [reflexivity|cbn; lia])).
    destruct E as (-> & Hl). unfold str_size. lia.
  - rewrite !sum_cons, !ts_id. cbn [pre_size]. change (length (s2l "ActiveTransform")) with 15. lia.
  - apply params_items_size in Hp. rewrite !sum_cons, ts_str, ts_id.
    assert (E : pre_size (mkP (mkDS ty p (collect l))) = struct_size (mkDS ty p (collect l)) /\ 1 <= length id) by (destruct Hk; (split; [reflexivity|cbn; lia])).
    destruct E as (-> & Hl). unfold struct_size. cbn [ds_ty ds_params]. rewrite collect_size. unfold str_size. lia.
Qed.
Lemma predirectives_size s ds r : predirectives fo s ds r -> sum pre_size ds + tsize r <= tsize s.
Proof.
  induction 1 as [p s|s d s' ds r Hd H IH]; [cbn; lia|]. apply predirective_size in Hd. rewrite sum_cons. lia.
Qed.
Lemma parse_tokens_size s x : parse_tokens fo s = Done (Ok x) -> scene_size x <= tsize s.
Proof.
  intros H. apply parse_tokens_iff in H. destruct H as [s pres s' w r Hp Hd]. apply predirectives_size in Hp.
  apply directive_size in Hd. unfold scene_size. cbn [fst snd]. lia.
Qed.

(** ** Texts *)
Context (cc : CharClass) (Hcc : cc_ok cc).
Lemma str_body_length src v : str_body src v -> length v <= length src.
Proof. induction 1; cbn; lia. Qed.
Lemma number_length chk text v rest : number fo cc chk text v rest -> 1 <= length text.
Proof.
  intros [sg neg body v0 r Hs Hm Hi Hr|sg neg body m k r Hs Hm Hd Hr|sg neg body m t e v0 r Hs Hm Hi Hn Hz He|
    sg neg body dot m k t e r Hs Hm Hd Hn He|sg neg body dot m k t f r Hs Hm Hd Hn]; rewrite !app_length; cbn; try lia.
  - destruct Hi as (Hb & _). destruct body; [easy|]. cbn. lia.
  - destruct Hd as [a Ha _|a b Ha _ _]; [destruct a; [easy|]; cbn; lia|]. rewrite app_length. cbn. lia.
Qed.
Lemma lexeme_size chk text ty rest p : lexeme fo cc chk text ty rest -> token_size (mkTok p ty) <= length text.
Proof.
  intros [r|r|src v r Hb|t r Hi|t v r Hn].
  - cbn. lia.
  - cbn. lia.
  - apply str_body_length in Hb. rewrite ts_str. cbn [length]. rewrite app_length. cbn. lia.
  - rewrite ts_id. lia.
  - assert (E : token_size (mkTok p v) = 1) by (destruct Hn; reflexivity). rewrite E. eapply number_length; exact Hn.
Qed.
Lemma lexes_size chk pre s ts : lexes fo cc chk pre s ts -> tsize ts <= length s.
Proof.
  induction 1 as [pre|pre c s ts Hc H IH|pre body s ts Hb H IH|pre body Hb|pre text ty s ts Hx H IH].
  - cbn. lia.
  - cbn [length]. lia.
  - cbn [length]. rewrite app_length. cbn [length]. lia.
  - cbn. lia.
  - apply (lexeme_size _ _ _ _ (pos_of pre)) in Hx. rewrite sum_cons, app_length. lia.
Qed.
Lemma lf_text_length s t : lf_text s t -> length t <= length s.
Proof. induction 1; cbn; lia. Qed.
Lemma tokenize_size chk input ts : tokenize fo cc chk input = Done (Ok ts) -> tsize ts <= length input.
Proof.
  intros H. apply (tokenize_ok_iff fo cc Hcc) in H. apply lexes_size in H.
  pose proof (lf_text_length _ _ (replace_crlf_spec input)). lia.
Qed.
Lemma parse_size chk input x : parse fo cc chk input = Done (Ok x) -> scene_size x <= length input.
Proof.
  unfold parse. destruct (tokenize fo cc chk input) as [[ts|e]| |] eqn:E; try discriminate. intros H.
  apply tokenize_size in E. apply parse_tokens_size in H. lia.
Qed.
End S.
