(** The texts of error messages: what they look like, and that they can be told apart. *)
From Coq Require Import Decimal DecimalFacts DecimalPos DecimalN.
From Verif Require Import Base TokModel ParModel LexSpec LexErrSpec SceneSpec SynErrSpec ErrSpec TokProofs LexProofs LexThms
  LexErrProofs SceneThms TextThms SynErrProofs ErrThms RenderModel RenderSpec.

(** ** Numbers *)
Lemma fmt_digits_inj a : forall b, fmt_digits a = fmt_digits b -> a = b.
Proof. induction a; intros []; cbn; intros H; try discriminate; try reflexivity; injection H as H; f_equal; auto. Qed.
Lemma fmt_digits_all d : all_digits (fmt_digits d).
Proof. induction d; cbn; constructor; try reflexivity; assumption. Qed.
Lemma fmt_digits_acc d : forall acc,
  fold_left (fun a c => (10 * a + Z.of_N (c - c_0)%N)%Z) (fmt_digits d) (Z.pos acc) = Z.pos (Pos.of_uint_acc d acc).
Proof.
  induction d as [|d IH|d IH|d IH|d IH|d IH|d IH|d IH|d IH|d IH|d IH]; intros acc; cbn [fmt_digits fold_left Pos.of_uint_acc];
    [reflexivity|..]; rewrite <- IH; f_equal;
    match goal with |- context [Z.of_N ?x] => let y := eval vm_compute in (Z.of_N x) in change (Z.of_N x) with y end; lia.
Qed.
Lemma fmt_digits_val d : dec_val (fmt_digits d) = Z.of_N (Pos.of_uint d).
Proof.
  unfold dec_val. induction d as [|d IH|d IH|d IH|d IH|d IH|d IH|d IH|d IH|d IH|d IH]; cbn [fmt_digits fold_left Pos.of_uint];
    [reflexivity|exact IH|..]; symmetry; refine (eq_trans (eq_sym (fmt_digits_acc d _)) _); reflexivity.
Qed.
Lemma to_uint_norm n : unorm (N.to_uint n) = N.to_uint n.
Proof. rewrite <- (DecimalN.Unsigned.to_of (N.to_uint n)). now rewrite DecimalN.Unsigned.of_to. Qed.
Lemma nzhead_invert d d' : nzhead d <> D0 d'.
Proof. induction d; cbn; try discriminate; assumption. Qed.
Lemma norm_zero d : unorm (D0 d) = D0 d -> d = Nil.
Proof.
  unfold unorm. cbn [nzhead]. destruct (nzhead d) eqn:E; intros H; try discriminate H.
  - injection H as <-. reflexivity.
  - elim (nzhead_invert _ _ E).
Qed.
Lemma fmt_to_uint n : let w := fmt_digits (N.to_uint n) in
  w <> [] /\ all_digits w /\ dec_val w = Z.of_N n /\ forall w', w = c_0 :: w' -> w' = [].
Proof.
  intros w; subst w. split; [|split; [apply fmt_digits_all|split]].
  - intros H. pose proof (to_uint_norm n) as E. destruct (N.to_uint n); try discriminate H. discriminate E.
  - rewrite fmt_digits_val. f_equal. apply DecimalN.Unsigned.of_to.
  - intros w' H. pose proof (to_uint_norm n) as E. destruct (N.to_uint n); try discriminate H.
    cbn in H. injection H as <-. apply norm_zero in E. now rewrite E.
Qed.
Lemma fmt_usize_text n : number_text (fmt_usize n) n.
Proof.
  pose proof (fmt_to_uint (N.of_nat n)) as (H1 & H2 & H3 & H4). unfold number_text, fmt_usize.
  repeat split; auto. rewrite H3. lia.
Qed.

(** Two runs of digits that end at the same kind of character. *)
Lemma digits_split a : forall b x y, all_digits a -> all_digits b ->
  next_is (fun c => is_ascii_digit c = false) x -> next_is (fun c => is_ascii_digit c = false) y ->
  a ++ x = b ++ y -> a = b /\ x = y.
Proof.
  induction a as [|c a IH]; intros [|d b] x y Ha Hb Hx Hy E; cbn [app] in E.
  - auto.
  - subst x. cbn in Hx. inversion Hb; congruence.
  - subst y. cbn in Hy. inversion Ha; congruence.
  - injection E as <- E. inversion Ha; inversion Hb; subst. destruct (IH b x y) as [-> ->]; auto.
Qed.
Lemma place_text_pos p : place_text (fmt_pos p) p.
Proof. exists (fmt_usize (pos_r p)), (fmt_usize (pos_c p)). repeat split; try apply fmt_usize_text. Qed.
Lemma place_inj w w' p p' x y : place_text w p -> place_text w' p' -> w ++ x = w' ++ y -> p = p' /\ w = w' /\ x = y.
Proof.
  intros (r & c & Hr & Hc & ->) (r' & c' & Hr' & Hc' & ->) E.
  destruct Hr as (_ & Dr & Vr & _), Hc as (_ & Dc & Vc & _), Hr' as (_ & Dr' & Vr' & _), Hc' as (_ & Dc' & Vc' & _).
  cbn [s2l app] in E. injection E as E. rewrite <- !app_assoc in E.
  apply digits_split in E as [-> E]; [|assumption|assumption|reflexivity|reflexivity].
  cbn [s2l app] in E. injection E as E. rewrite <- !app_assoc in E.
  apply digits_split in E as [-> E]; [|assumption|assumption|reflexivity|reflexivity].
  cbn [s2l app] in E. injection E as ->.
  assert (pos_r p = pos_r p') by lia. assert (pos_c p = pos_c p') by lia.
  destruct p, p'; cbn in *; subst. auto.
Qed.
Lemma fmt_pos_inj p p' x y : fmt_pos p ++ x = fmt_pos p' ++ y -> p = p' /\ x = y.
Proof.
  intros H. destruct (place_inj _ _ _ _ _ _ (place_text_pos p) (place_text_pos p') H) as (-> & _ & ->). auto.
Qed.

Lemma fmt_usize_inj n m : fmt_usize n = fmt_usize m -> n = m.
Proof.
  intros H. destruct (fmt_usize_text n) as (_ & _ & Hn & _), (fmt_usize_text m) as (_ & _ & Hm & _).
  rewrite H in Hn. lia.
Qed.
Lemma fmt_isize_inj a b : fmt_isize a = fmt_isize b -> a = b.
Proof.
  assert (N : forall n p, fmt_digits (N.to_uint n) <> c_minus :: p).
  { intros n p H. destruct (fmt_to_uint n) as (_ & D & _). rewrite H in D. inversion D as [|? ? Hd]. discriminate Hd. }
  assert (I : forall n m, fmt_digits (N.to_uint n) = fmt_digits (N.to_uint m) -> n = m).
  { intros n m H. destruct (fmt_to_uint n) as (_ & _ & Hn & _), (fmt_to_uint m) as (_ & _ & Hm & _). rewrite H in Hn. lia. }
  destruct a as [|a|a], b as [|b|b]; cbn [fmt_isize]; intros H; try reflexivity;
    try (exfalso; eapply N; eassumption); try (exfalso; eapply N; symmetry; eassumption).
  - apply I in H. discriminate.
  - apply I in H. discriminate.
  - apply I in H. lia.
  - injection H as H. change (fmt_digits (N.to_uint (Npos a)) = fmt_digits (N.to_uint (Npos b))) in H. apply I in H. congruence.
Qed.

(** ** Tokens *)
Section Render.
Context {F : Type} (fo : FloatOps F) (dd : DebugOps F).
Notation toks := (list (Token F)).
Notation msg := (list (piece F)).

Lemma fmt_error_str m : fmt_error dd (EStr m) = fmt_msg dd m.
Proof. unfold fmt_msg. cbn [fmt_error]. induction m as [|x m IH]; [reflexivity|]. cbn [flat_map]. now rewrite IH. Qed.

Section Inj.
Context (Hd : debug_ok dd).
Lemma dbg_chars_inj s : forall t x y, flat_map (dbg_char dd) s ++ c_quote :: x = flat_map (dbg_char dd) t ++ c_quote :: y -> s = t /\ x = y.
Proof.
  induction s as [|c s IH]; intros [|d t] x y E; cbn [flat_map app] in E.
  - injection E as ->. auto.
  - rewrite <- app_assoc in E. symmetry in E. elim (dk_quote _ Hd _ _ _ E).
  - rewrite <- app_assoc in E. elim (dk_quote _ Hd _ _ _ E).
  - rewrite <- !app_assoc in E. apply (dk_char _ Hd) in E as [-> E]. apply IH in E as [-> ->]. auto.
Qed.
Lemma dbg_str_inj s t x y : dbg_str dd s ++ x = dbg_str dd t ++ y -> s = t /\ x = y.
Proof.
  unfold dbg_str. cbn [app]. intros E. injection E as E. rewrite <- !app_assoc in E. cbn [app] in E. now apply dbg_chars_inj.
Qed.
Lemma dbg_token_inj a b : dbg_token dd a = dbg_token dd b -> a = b.
Proof.
  destruct a as [s|i|f|s| |], b as [t|j|g|t| |]; cbn [dbg_token]; intros H; try discriminate H; try reflexivity;
    apply app_inv_head in H.
  - apply dbg_str_inj in H as [-> _]. reflexivity.
  - apply app_inv_tail in H. f_equal. now apply fmt_isize_inj.
  - apply app_inv_tail in H. f_equal. now apply (dk_float _ Hd).
  - apply dbg_str_inj in H as [-> _]. reflexivity.
Qed.
End Inj.

(** ** The messages *)
Definition end_texts : list string :=
  [" tokenize_num(): no number"; " tokenize_str(): EOF while processing string";
   " tokenize_str(): EOF while processing escape seq"]%string.
Definition char_texts : list string := [" tokenize_num(): unexpected char '"; " tokenize_one(): unexpected char '"]%string.
Definition tok_texts : list string :=
  [" parse_string(): expected string but got "; " parse_identifier(): expected identifier but got ";
   " parse_predirectives(): expected predirective but got ";
   " parse_directives(): expected identifier or block close but got "]%string.
Definition str_texts : list string :=
  [" parse_predirective(): Unknown predirective: "; " parse_directive(): unknown identifier "]%string.
Definition count_text (what : string) : string :=
  (" parse_predirective(): " ++ what ++ " expects ")%string.
Definition count_texts : list string :=
  map count_text ["Translate"; "Scale"; "Rotate"; "LookAt"; "Transform"; "ConcatTransform"; "TransformTimes"]%string.
Definition count_msg p what n k : msg :=
  [PPos p; PText " parse_predirective(): "; PText what; PText " expects "; PNat n; PText " floats but was given "; PNat k].
Definition many_msg p ty : msg := no_numbers [PPos p; PText " parse_float(): expected float but got "; PTok ty].

Inductive shape (P : Pos -> Prop) : msg -> Prop :=
| sh_end : forall p t, P p -> In t end_texts -> shape P [PPos p; PText t]
| sh_char : forall p t c, P p -> In t char_texts -> shape P [PPos p; PText t; PChar c; PText "'"]
| sh_tok : forall p t ty, P p -> In t tok_texts -> shape P [PPos p; PText t; PTok ty]
| sh_str : forall p t w, P p -> In t str_texts -> shape P [PPos p; PText t; PStr w]
| sh_count : forall p what n k, P p -> count_kw what n -> shape P (count_msg p what n k)
| sh_many : forall p ty, P p -> shape P (many_msg p ty)
| sh_fixed : forall m, conversion_text m \/ end_text m -> shape P m.

Lemma shape_impl (P Q : Pos -> Prop) m : (forall p, P p -> Q p) -> shape P m -> shape Q m.
Proof. intros H []; [apply sh_end|apply sh_char|apply sh_tok|apply sh_str|apply sh_count|apply sh_many|apply sh_fixed]; auto. Qed.

(** Lexical errors. *)
Section Lex.
Context (cc : CharClass).
Definition is_place (t : str) (p : Pos) : Prop := exists a b, t = a ++ b /\ p = pos_of a.
Ltac inl := cbn [In end_texts char_texts tok_texts str_texts]; tauto.

Lemma num_error_shape' chk pre s m : num_error fo cc chk pre s m -> shape (is_place (pre ++ s)) m.
Proof.
  intros H. apply num_error_shape in H as [(a & b & -> & ->)|[(a & b & -> & ->)|H]].
  - apply sh_end; [|inl]. exists (pre ++ a), b. now rewrite app_assoc.
  - apply sh_char; [|inl]. exists (pre ++ a), (c_dot :: b). now rewrite app_assoc.
  - apply sh_fixed. auto.
Qed.
Lemma lex_error_shape' chk pre s m : lex_error fo cc chk pre s m -> shape (is_place (pre ++ s)) m.
Proof.
  induction 1 as [pre c s m Hw He IH|pre body s m Hb He IH|pre text ty s m Hl He IH|pre s m Ht].
  - now rewrite <- app_assoc in IH.
  - rewrite <- app_assoc in IH. cbn [app] in IH. now rewrite <- app_assoc in IH.
  - now rewrite <- app_assoc in IH.
  - destruct Ht as [pre c s Hs|pre s Ho|pre s Ho|pre c s m Hc Hn].
    + apply sh_char; [|inl]. exists pre, (c :: s). auto.
    + apply sh_end; [|inl]. exists (pre ++ c_quote :: s), []. now rewrite app_nil_r.
    + apply sh_end; [|inl]. exists (pre ++ c_quote :: s), [c_bslash]. split; [|reflexivity]. now rewrite <- app_assoc.
    + now apply num_error_shape' in Hn.
Qed.
End Lex.

(** Syntax errors. *)
Definition tok_at (s : toks) (p : Pos) : Prop := exists t, In t s /\ tok_pos t = p.
Lemma shape_app c s m : shape (tok_at s) m -> shape (tok_at (c ++ s)) m.
Proof. apply shape_impl. intros p (t & H & E). exists t. split; [apply in_or_app|]; auto. Qed.
Lemma shape_cons t s m : shape (tok_at s) m -> shape (tok_at (t :: s)) m.
Proof. apply (shape_app [t]). Qed.
Lemma tok_at_here p ty s : tok_at (mkTok p ty :: s) p.
Proof. exists (mkTok p ty). split; [left|]; reflexivity. Qed.
Hint Resolve tok_at_here : rnd.
Ltac inl := cbn [In end_texts char_texts tok_texts str_texts]; tauto.
Lemma shape_string s m : string_error s m -> shape (tok_at s) m.
Proof. intros [|p ty s' H]; [apply sh_fixed; right; constructor|apply sh_tok; [apply tok_at_here|inl]]. Qed.
Lemma shape_ident s m : ident_error s m -> shape (tok_at s) m.
Proof. intros [|p ty s' H]; [apply sh_fixed; right; constructor|apply sh_tok; [apply tok_at_here|inl]]. Qed.
Lemma shape_number s m : number_error s m -> shape (tok_at s) (no_numbers m).
Proof. intros [|p ty s' H]; [apply sh_fixed; right; constructor|apply sh_many; apply tok_at_here]. Qed.
Lemma shape_pre s m : pre_error fo s m -> shape (tok_at s) m.
Proof.
  intros [p id mkP s0 m0 Hk He|p id mkP s0 m0 Hk He|p s0 m0 He|p what n s0 m0 Hk He|p what n s0 fl r Hk Hi Hr Hn|p id s0 Hw Hid].
  - apply shape_cons. now apply shape_string.
  - apply shape_cons. now apply shape_string.
  - apply shape_cons. now apply shape_ident.
  - apply shape_cons. exact (shape_number _ _ He).
  - apply sh_count; [apply tok_at_here|assumption].
  - apply sh_str; [apply tok_at_here|inl].
Qed.
Lemma shape_pres s m : pres_error fo s m -> shape (tok_at s) m.
Proof.
  induction 1 as [p ty s Hty|p id mkP q w s l p' ty r Hk Hl Hty|s m He|s d s' m Hd Hs IH].
  - apply sh_tok; [apply tok_at_here|inl].
  - do 2 apply shape_cons. apply params_run_suffix in Hl as (c & ->). apply shape_app, sh_tok; [apply tok_at_here|inl].
  - now apply shape_pre.
  - apply predirective_suffix in Hd as (c & ->). now apply shape_app.
Qed.
Lemma shape_dirs : (forall s m, dir_error fo s m -> shape (tok_at s) m) /\ (forall s m, dirs_error fo s m -> shape (tok_at s) m).
Proof.
  set (P := fun s m => shape (tok_at s) m).
  split; [apply (dir_error_mut F fo P P)|apply (dirs_error_mut F fo P P)]; unfold P; intros.
  all: try (repeat apply shape_cons; now apply shape_string).
  all: try (apply shape_cons; assumption).
  all: try (apply sh_str; [apply tok_at_here|inl]).
  all: try (apply sh_tok; [apply tok_at_here|inl]).
  all: try assumption.
  all: try (repeat apply shape_cons; match goal with H : params_run _ _ _ _ |- _ => apply params_run_suffix in H as (c & ->) end;
            apply shape_app, sh_tok; [apply tok_at_here|inl]).
  all: match goal with H : directive _ _ _ _ |- _ => apply directive_suffix in H as (c & ->) end; now apply shape_app.
Qed.
Lemma shape_scene s m : scene_error fo s m -> shape (tok_at s) m.
Proof.
  intros [s0 m0 Hp|s0 pres s' m0 Hp Hd]; [now apply shape_pres|].
  apply predirectives_suffix in Hp as (c & ->). apply shape_app. now apply (proj1 shape_dirs).
Qed.

(** Whole texts. *)
Definition place_of (input : str) (p : Pos) : Prop := exists a b, lf_text input (a ++ b) /\ p = pos_of a.
Lemma parse_shape cc : cc_ok cc -> forall chk input m, parse fo cc chk input = Done (Err (EStr m)) -> shape (place_of input) m.
Proof.
  intros Hcc chk input m. unfold parse. destruct (tokenize fo cc chk input) as [[ts|e]| |] eqn:E; try discriminate.
  - intros H. apply parse_tokens_error_iff, shape_scene in H.
    apply (tokenize_positions fo cc Hcc) in E as (_ & t & Ht & Hf).
    revert H. apply shape_impl. intros p (k & Hk & <-). rewrite Forall_forall in Hf.
    destruct (Hf k Hk) as (pre & text & rest & -> & _ & ->). exists pre, (text ++ rest). auto.
  - destruct e as [m'|]; cbn; [|discriminate]. intros [= ->].
    apply (proj1 (tokenize_error_iff fo cc Hcc _ _ _)) in E as (t & Ht & He). apply lex_error_shape' in He.
    revert He. apply shape_impl. intros p (a & b & E & ->). cbn [app] in E. subst t. exists a, b. auto.
Qed.

(** ** Telling the texts apart *)
Lemma s2l_app a b : s2l (a ++ b)%string = s2l a ++ s2l b.
Proof. induction a as [|c a IH]; cbn; [reflexivity|]. now rewrite IH. Qed.
Fixpoint prefix_of (a b : str) : bool :=
  match a, b with
  | [], _ => true
  | x :: a', y :: b' => (x =? y)%N && prefix_of a' b'
  | _, [] => false
  end.
Lemma prefix_of_app a : forall b x y, a ++ x = b ++ y -> prefix_of a b = true \/ prefix_of b a = true.
Proof.
  induction a as [|c a IH]; intros [|d b] x y E; cbn; auto. cbn in E. injection E as <- E. rewrite N.eqb_refl. cbn. eauto.
Qed.
Definition apart (l : list string) : bool :=
  forallb (fun a => forallb (fun b => String.eqb a b || negb (prefix_of (s2l a) (s2l b) || prefix_of (s2l b) (s2l a))) l) l.
Lemma apart_ok l a b x y : apart l = true -> In a l -> In b l -> s2l a ++ x = s2l b ++ y -> a = b /\ x = y.
Proof.
  intros H Ha Hb E. unfold apart in H. rewrite forallb_forall in H. specialize (H a Ha). cbn in H.
  rewrite forallb_forall in H. specialize (H b Hb). apply orb_true_iff in H as [H|H].
  - apply String.eqb_eq in H as ->. split; [reflexivity|]. now apply app_inv_head in E.
  - exfalso. apply negb_true_iff, orb_false_iff in H as [H1 H2]. apply prefix_of_app in E as [E|E]; congruence.
Qed.
Definition all_texts : list string := end_texts ++ char_texts ++ tok_texts ++ str_texts ++ count_texts.
Lemma all_apart : apart all_texts = true.
Proof. vm_compute. reflexivity. Qed.

(** A message with a position in front: its first text and what follows. *)
Inductive after (p : Pos) : msg -> string -> msg -> Prop :=
| af_end : forall t, In t end_texts -> after p [PPos p; PText t] t []
| af_char : forall t c, In t char_texts -> after p [PPos p; PText t; PChar c; PText "'"] t [PChar c; PText "'"]
| af_tok : forall t ty, In t tok_texts -> after p [PPos p; PText t; PTok ty] t [PTok ty]
| af_str : forall t w, In t str_texts -> after p [PPos p; PText t; PStr w] t [PStr w]
| af_count : forall what n k, count_kw what n ->
    after p (count_msg p what n k) (count_text what) [PNat n; PText " floats but was given "; PNat k].
Lemma count_in what n : count_kw what n -> In (count_text what) count_texts.
Proof. intros []; apply in_map; cbn; tauto. Qed.
Lemma after_in p f t m : after p f t m -> In t all_texts.
Proof. unfold all_texts. rewrite !in_app_iff. intros []; auto. apply count_in in H. tauto. Qed.
Lemma in_two (l l' : list string) t : In t l -> In t l' -> forallb (fun a => negb (existsb (String.eqb a) l')) l = true -> False.
Proof.
  intros H H' E. rewrite forallb_forall in E. specialize (E t H). apply negb_true_iff in E.
  assert (existsb (String.eqb t) l' = true); [|congruence]. apply existsb_exists. exists t. split; [assumption|]. apply String.eqb_refl.
Qed.
Lemma count_text_inj w w' : count_text w = count_text w' -> w = w'.
Proof.
  unfold count_text. intros H. assert (forall a b c, (a ++ c = b ++ c)%string -> a = b) as I.
  { intros a b c E. assert (J : s2l a = s2l b).
    { apply (app_inv_tail (s2l c)). now rewrite <- !s2l_app, E. }
    clear E. revert b J. induction a as [|x a IH]; intros [|y b] J; try discriminate; [reflexivity|]. injection J as J1 J2.
    f_equal; [|auto]. rewrite <- (ascii_N_embedding x), <- (ascii_N_embedding y). now rewrite J1. }
  cbn in H. injection H as H. now apply I in H.
Qed.
Lemma count_kw_fun w n n' : count_kw w n -> count_kw w n' -> n = n'.
Proof. intros H H'; inversion H; subst; inversion H'; reflexivity. Qed.

Section Distinct.
Context (Hd : debug_ok dd).
Lemma after_inj p f f' t m m' : after p f t m -> after p f' t m' -> fmt_msg dd m = fmt_msg dd m' -> f = f'.
Proof.
  intros H H' E. inversion H; subst; inversion H'; subst; try reflexivity;
    repeat match goal with K : count_kw _ _ |- _ => pose proof (count_in _ _ K); revert K end; intros;
    try (match goal with A : In ?t ?l, B : In ?t ?l' |- _ => exfalso; exact (in_two l l' t A B eq_refl) end);
    unfold fmt_msg in E; cbn [flat_map fmt_piece app] in E; rewrite ?app_nil_r in E.
  - injection E as ->. reflexivity.
  - apply dbg_token_inj in E; [congruence|assumption].
  - congruence.
  - assert (what0 = what) as -> by (apply count_text_inj; unfold count_text; cbn; congruence).
    match goal with K : count_kw ?w ?a, K' : count_kw ?w ?b |- _ => pose proof (count_kw_fun _ _ _ K K'); subst end.
    apply app_inv_head in E. apply app_inv_head in E. apply fmt_usize_inj in E. congruence.
Qed.

(** Three kinds of texts. *)
Lemma shape_kind P m : shape P m ->
  (exists p t m', P p /\ after p m t m' /\ fmt_msg dd m = fmt_pos p ++ s2l t ++ fmt_msg dd m') \/
  (exists p ty, P p /\ m = many_msg p ty) \/ (conversion_text m \/ end_text m).
Proof.
  intros [p t Hp Ht|p t c Hp Ht|p t ty Hp Ht|p t w Hp Ht|p what n k Hp Hk|p ty Hp|m0 H].
  - left. exists p, t, []. split; [assumption|]. split; [now constructor|reflexivity].
  - left. exists p, t. eexists. split; [assumption|]. split; [now constructor|reflexivity].
  - left. exists p, t. eexists. split; [assumption|]. split; [now constructor|reflexivity].
  - left. exists p, t. eexists. split; [assumption|]. split; [now constructor|reflexivity].
  - left. exists p, (count_text what). eexists. split; [assumption|]. split; [now apply af_count|].
    unfold count_text, count_msg, fmt_msg. cbn [flat_map fmt_piece]. rewrite !s2l_app, <- !app_assoc. reflexivity.
  - right; left. eauto.
  - auto.
Qed.
Lemma fmt_many p ty : fmt_msg dd (many_msg p ty) =
  s2l many_prefix ++ fmt_pos p ++ s2l " parse_float(): expected float but got " ++ dbg_token dd ty.
Proof.
  unfold many_msg, no_numbers, fmt_msg. cbn [flat_map fmt_piece fmt_error]. rewrite !app_nil_r. reflexivity.
Qed.
Definition fixed_texts : list string :=
  ["invalid digit found in string"; "number too large to fit in target type";
   "number too small to fit in target type"; "invalid float literal"; "parse_string(): EOF while processing string";
   "parse_identifier(): EOF while processing identifier"; many_prefix ++ "parse_float(): EOF while parsing float"]%string.
Lemma fmt_fixed m : conversion_text m \/ end_text m -> exists t, In t fixed_texts /\ fmt_msg dd m = s2l t.
Proof.
  intros [[->|[->|[->| ->]]]|[]]; unfold fmt_msg; cbn [flat_map fmt_piece fmt_error]; rewrite ?app_nil_r.
  all: try (eexists; split; [|reflexivity]; cbn; tauto).
  exists (many_prefix ++ "parse_float(): EOF while parsing float")%string. split; [cbn [In fixed_texts]; tauto|reflexivity].
Qed.
Lemma fixed_inj m m' : conversion_text m \/ end_text m -> conversion_text m' \/ end_text m' -> fmt_msg dd m = fmt_msg dd m' -> m = m'.
Proof.
  intros [[->|[->|[->| ->]]]|[]] [[->|[->|[->| ->]]]|[]] H; try reflexivity; discriminate H.
Qed.
Lemma fixed_no_paren t x : In t fixed_texts -> s2l t <> s2l "(" ++ x.
Proof. cbn [In fixed_texts]. intros [<-|[<-|[<-|[<-|[<-|[<-|[<-|[]]]]]]]]; discriminate. Qed.
Lemma fixed_no_many t x : In t fixed_texts -> s2l t <> s2l many_prefix ++ s2l "(" ++ x.
Proof. cbn [In fixed_texts]. intros [<-|[<-|[<-|[<-|[<-|[<-|[<-|[]]]]]]]]; discriminate. Qed.

Lemma pos_paren p x : fmt_pos p ++ x = s2l "(" ++ (fmt_usize (pos_r p) ++ s2l ", " ++ fmt_usize (pos_c p) ++ s2l ")") ++ x.
Proof. unfold fmt_pos. now rewrite <- app_assoc. Qed.
Lemma many_no_paren x y : s2l many_prefix ++ x <> s2l "(" ++ y.
Proof. discriminate. Qed.

Lemma shape_inj P P' m m' : shape P m -> shape P' m' -> fmt_msg dd m = fmt_msg dd m' -> m = m'.
Proof.
  intros H H' E. apply shape_kind in H as [(p & t & n & _ & Ha & En)|[(p & ty & _ & ->)|H]];
    apply shape_kind in H' as [(p' & t' & n' & _ & Ha' & En')|[(p' & ty' & _ & ->)|H']].
  - rewrite En, En' in E. apply fmt_pos_inj in E as [<- E].
    apply (apart_ok all_texts) in E as [<- E]; [|exact all_apart|now apply after_in in Ha|now apply after_in in Ha'].
    exact (after_inj _ _ _ _ _ _ Ha Ha' E).
  - exfalso. rewrite En, fmt_many, pos_paren in E. symmetry in E. exact (many_no_paren _ _ E).
  - exfalso. apply fmt_fixed in H' as (w & Hw & Ew). rewrite En, Ew, pos_paren in E. symmetry in E. exact (fixed_no_paren _ _ Hw E).
  - exfalso. rewrite En', fmt_many, pos_paren in E. exact (many_no_paren _ _ E).
  - rewrite !fmt_many in E. apply app_inv_head in E. apply fmt_pos_inj in E as [<- E]. apply app_inv_head in E.
    apply dbg_token_inj in E as ->; auto.
  - exfalso. apply fmt_fixed in H' as (w & Hw & Ew). rewrite fmt_many, Ew, pos_paren in E. symmetry in E. exact (fixed_no_many _ _ Hw E).
  - exfalso. apply fmt_fixed in H as (w & Hw & Ew). rewrite En', Ew, pos_paren in E. exact (fixed_no_paren _ _ Hw E).
  - exfalso. apply fmt_fixed in H as (w & Hw & Ew). rewrite fmt_many, Ew, pos_paren in E. exact (fixed_no_many _ _ Hw E).
  - now apply fixed_inj.
Qed.
Lemma shape_not_eof P m : shape P m -> fmt_msg dd m <> s2l "EOF".
Proof.
  intros H E. apply shape_kind in H as [(p & t & n & _ & Ha & En)|[(p & ty & _ & ->)|H]].
  - rewrite En, pos_paren in E. discriminate E.
  - rewrite fmt_many in E. discriminate E.
  - apply fmt_fixed in H as (w & Hw & Ew). rewrite Ew in E. revert Hw E. cbn [In fixed_texts].
    intros [<-|[<-|[<-|[<-|[<-|[<-|[<-|[]]]]]]]]; discriminate.
Qed.

(** ** The theorems *)
Context (cc : CharClass) (Hcc : cc_ok cc).
Lemma display_distinct chk chk' input input' e e' : parse fo cc chk input = Done (Err e) -> parse fo cc chk' input' = Done (Err e') ->
  fmt_error dd e = fmt_error dd e' -> e = e'.
Proof.
  intros H H' E. destruct e as [m|], e' as [m'|].
  - rewrite !fmt_error_str in E. f_equal. eapply shape_inj; [eapply parse_shape; eassumption|eapply parse_shape; eassumption|assumption].
  - exfalso. rewrite fmt_error_str in E. eapply shape_not_eof; [eapply parse_shape; eassumption|exact E].
  - exfalso. rewrite fmt_error_str in E. symmetry in E. eapply shape_not_eof; [eapply parse_shape; eassumption|exact E].
  - reflexivity.
Qed.
End Distinct.

Lemma display_form cc : cc_ok cc -> forall chk input e, parse fo cc chk input = Done (Err e) ->
  In (fmt_error dd e) placeless \/
  exists p w rest, place_of input p /\ place_text w p /\
    (fmt_error dd e = w ++ s2l " " ++ rest \/
     fmt_error dd e = s2l many_prefix ++ w ++ s2l " parse_float(): expected float but got " ++ rest).
Proof.
  intros Hcc chk input [m|] H; [|left; left; reflexivity].
  apply parse_shape in H; [|assumption]. rewrite fmt_error_str.
  apply shape_kind in H as [(p & t & n & Hp & Ha & En)|[(p & ty & Hp & ->)|H]].
  - right. apply after_in in Ha. assert (exists t', s2l t = s2l " " ++ t') as (t' & Et).
    { revert Ha. unfold all_texts. cbn [In app end_texts char_texts tok_texts str_texts count_texts map count_text append].
      intros H. repeat (destruct H as [<-|H]; [eexists; reflexivity|]). destruct H. }
    exists p, (fmt_pos p), (t' ++ fmt_msg dd n). split; [assumption|]. split; [apply place_text_pos|]. left.
    rewrite En, Et. now rewrite <- app_assoc.
  - right. exists p, (fmt_pos p), (dbg_token dd ty). split; [assumption|]. split; [apply place_text_pos|]. right. apply fmt_many.
  - left. apply fmt_fixed in H as (t & Ht & ->). unfold placeless. right. fold (map s2l). apply in_map. exact Ht.
Qed.
Lemma display_place cc : cc_ok cc -> forall chk input e pre w p rest, parse fo cc chk input = Done (Err e) ->
  pre = [] \/ pre = s2l many_prefix -> place_text w p -> fmt_error dd e = pre ++ w ++ rest -> place_of input p.
Proof.
  intros Hcc chk input e pre w p rest H Hpre Hw E.
  assert (Hw' : exists w', w = s2l "(" ++ w') by (destruct Hw as (r & c & _ & _ & ->); eexists; reflexivity).
  destruct Hw' as (w' & Ew).
  destruct (display_form cc Hcc chk input e H) as [Hn|(q & v & rest' & Hq & Hv & [E'|E'])].
  - exfalso. unfold placeless in Hn. apply in_map_iff in Hn as (t & Et & Ht). rewrite E, Ew in Et.
    destruct Ht as [<-|Ht]; [destruct Hpre as [-> | ->]; discriminate Et|].
    destruct Hpre as [-> | ->]; rewrite <- ?app_assoc in Et.
    + exact (fixed_no_paren _ _ Ht Et).
    + exact (fixed_no_many _ _ Ht Et).
  - rewrite E in E'. destruct Hpre as [-> | ->].
    + cbn [app] in E'. destruct (place_inj _ _ _ _ _ _ Hw Hv E') as (-> & _). assumption.
    + exfalso. destruct Hv as (r & c & _ & _ & ->). discriminate E'.
  - rewrite E in E'. destruct Hpre as [-> | ->].
    + exfalso. rewrite Ew in E'. discriminate E'.
    + apply app_inv_head in E'. destruct (place_inj _ _ _ _ _ _ Hw Hv E') as (-> & _). assumption.
Qed.
End Render.

(** ** A concrete instance: strings of printable characters, symbolic floats *)
Fixpoint enc_sym (a : sfloat) : str :=
  match a with
  | SDec neg m k => [0; if neg then 1 else 0; m; N.of_nat k]%N
  | SInt z => [1; if (z <? 0)%Z then 1 else 0; Z.abs_N z]%N
  | SMul x y => 2%N :: enc_sym x ++ enc_sym y
  | SPow10 x => 3%N :: enc_sym x
  end.
Lemma enc_sym_inj a : forall b x y, enc_sym a ++ x = enc_sym b ++ y -> a = b /\ x = y.
Proof.
  induction a as [n m k|a IHa b IHb|a IHa|z]; intros [n' m' k'|a' b'|a'|z'] x y E; cbn [enc_sym app] in E; try discriminate E.
  - injection E as E1 E2 E3 E4. apply Nat2N.inj in E3. subst. destruct n, n'; try discriminate; auto.
  - injection E as E. rewrite <- !app_assoc in E. apply IHa in E as [-> E]. apply IHb in E as [-> ->]. auto.
  - injection E as E. apply IHa in E as [-> ->]. auto.
  - injection E as E1 E2 ->. split; [|reflexivity]. f_equal. destruct (Z.ltb_spec z 0), (Z.ltb_spec z' 0); try discriminate; lia.
Qed.
Definition dbg_sym : DebugOps sfloat :=
  mkDO sfloat (fun c => if ((c =? c_quote) || (c =? c_bslash))%N then [c_bslash; c] else [c]) enc_sym.
Lemma dbg_sym_ok : debug_ok dbg_sym.
Proof.
  split; cbn [dbg_sym dbg_char dbg_float].
  - intros c d x y. destruct ((c =? c_quote) || (c =? c_bslash))%N eqn:C, ((d =? c_quote) || (d =? c_bslash))%N eqn:D;
      cbn [app]; intros E; injection E; intros; try (split; congruence); exfalso.
    + replace d with c_bslash in D by congruence. discriminate D.
    + replace c with c_bslash in C by congruence. discriminate C.
  - intros c x y. destruct ((c =? c_quote) || (c =? c_bslash))%N eqn:C; cbn [app]; intros E; injection E; intros.
    + discriminate.
    + replace c with c_quote in C by congruence. discriminate C.
  - intros a b E. apply (enc_sym_inj a b [] []). now rewrite !app_nil_r.
Qed.

(** ** The text of every error *)
Fixpoint uint_of (w : str) : Decimal.uint :=
  match w with
  | [] => Nil
  | c :: w => match (c - c_0)%N with
              | 0%N => D0 (uint_of w) | 1%N => D1 (uint_of w) | 2%N => D2 (uint_of w) | 3%N => D3 (uint_of w) | 4%N => D4 (uint_of w)
              | 5%N => D5 (uint_of w) | 6%N => D6 (uint_of w) | 7%N => D7 (uint_of w) | 8%N => D8 (uint_of w) | _ => D9 (uint_of w)
              end
  end.
Lemma digit_cases c : is_ascii_digit c = true -> In c [48; 49; 50; 51; 52; 53; 54; 55; 56; 57]%N.
Proof.
  unfold is_ascii_digit, c_0, c_9. rewrite andb_true_iff, !N.leb_le. intros [A B].
  change (In c (map N.of_nat (seq 48 10))). rewrite in_map_iff. exists (N.to_nat c). split; [lia|]. apply in_seq. lia.
Qed.
Lemma fmt_uint_of w : all_digits w -> fmt_digits (uint_of w) = w.
Proof.
  induction 1 as [|c w Hc Hw IH]; [reflexivity|]. apply digit_cases in Hc. cbn [uint_of].
  repeat (destruct Hc as [<-|Hc];
    [match goal with |- context [(?a - c_0)%N] => let v := eval vm_compute in (a - c_0)%N in change (a - c_0)%N with v end;
     cbv iota beta; cbn [fmt_digits]; now rewrite IH|]). contradiction.
Qed.
Lemma nzhead_solid d : (forall d', d <> D0 d') -> nzhead d = d.
Proof. destruct d; try reflexivity. intros H. now elim (H d). Qed.
Lemma number_unique w w' n : number_text w n -> number_text w' n -> w = w'.
Proof.
  enough (E : forall w, number_text w n -> w = fmt_usize n) by (intros H H'; rewrite (E _ H), (E _ H'); reflexivity).
  clear. intros w (NE & D & V & Z). unfold fmt_usize.
  assert (unorm (uint_of w) = uint_of w) as U.
  { pose proof (fmt_uint_of w D) as Ew. destruct (uint_of w) eqn:Eu; try reflexivity; cbn in Ew.
    - now subst w.
    - specialize (Z (fmt_digits u) (eq_sym Ew)). assert (u = Nil) as -> by (destruct u; try discriminate; reflexivity). reflexivity. }
  assert (N.of_nat n = N.of_uint (uint_of w)) as ->.
  { pose proof (fmt_digits_val (uint_of w)) as X. rewrite (fmt_uint_of w D), V in X. unfold N.of_uint. lia. }
  rewrite DecimalN.Unsigned.to_of, U. symmetry. now apply fmt_uint_of.
Qed.
Lemma fmt_isize_text z : int_text (fmt_isize z) z.
Proof.
  destruct z as [|p|p]; unfold int_text.
  - left. split; [lia|]. exact (fmt_usize_text 0).
  - left. split; [lia|]. replace (fmt_isize (Z.pos p)) with (fmt_usize (Z.to_nat (Z.pos p))); [apply fmt_usize_text|].
    unfold fmt_usize, fmt_isize. do 2 f_equal. lia.
  - right. split; [lia|]. exists (fmt_digits (Pos.to_uint p)). split; [reflexivity|].
    replace (fmt_digits (Pos.to_uint p)) with (fmt_usize (Z.to_nat (- Z.neg p))); [apply fmt_usize_text|].
    unfold fmt_usize. change (Pos.to_uint p) with (N.to_uint (Npos p)). do 2 f_equal. lia.
Qed.
Lemma int_unique w w' z : int_text w z -> int_text w' z -> w = w'.
Proof.
  intros [[S N]|[S (u & -> & N)]] [[S' N']|[S' (u' & -> & N')]]; try lia.
  - eapply number_unique; eauto.
  - f_equal. eapply number_unique; eauto.
Qed.
Section Texts.
Context {F : Type} (dd : DebugOps F).
Lemma dbg_str_quoted s : quoted dd (dbg_str dd s) s.
Proof. unfold quoted, dbg_str. rewrite flat_map_concat_map. reflexivity. Qed.
Lemma quoted_iff w s : quoted dd w s <-> w = dbg_str dd s.
Proof. pose proof (dbg_str_quoted s) as H. unfold quoted in *. rewrite H. reflexivity. Qed.
Lemma token_text_iff w t : token_text dd w t <-> w = dbg_token dd t.
Proof.
  split.
  - intros H. destruct H as [s w H|s w H|z w H|x| |]; try reflexivity; try (apply quoted_iff in H as ->; reflexivity).
    now rewrite (int_unique _ _ _ H (fmt_isize_text z)).
  - intros ->. destruct t; cbn [dbg_token]; constructor; try apply dbg_str_quoted. apply fmt_isize_text.
Qed.
Lemma place_text_iff w p : place_text w p <-> w = fmt_pos p.
Proof.
  split; [|intros ->; apply place_text_pos]. intros H.
  now destruct (place_inj w (fmt_pos p) p p [] []) as (_ & E & _);
    [exact H|apply place_text_pos| |exact E]; rewrite !app_nil_r;
    destruct H as (r & c & Hr & Hc & ->); unfold fmt_pos;
    rewrite (number_unique _ _ _ Hr (fmt_usize_text _)), (number_unique _ _ _ Hc (fmt_usize_text _)).
Qed.
Lemma error_text_shown : forall e, error_text dd (fmt_error dd e) e.
Proof.
  fix IH 1. intros [m|]; [|constructor]. constructor. rewrite fmt_error_str.
  induction m as [|x m IHm]; [constructor|]. unfold fmt_msg. cbn [flat_map]. constructor; [clear IHm|exact IHm].
  destruct x as [s|p|c|s|s|n|t|e|e]; cbn [fmt_piece]; try (constructor; fail).
  - constructor. apply place_text_pos.
  - constructor. apply dbg_str_quoted.
  - constructor. apply fmt_usize_text.
  - constructor. now apply token_text_iff.
  - constructor. apply IH.
  - pose proof (IH e) as Q. clear IH. destruct e as [m'|]; [|constructor]. econstructor; [|apply dbg_str_quoted]. now inversion Q.
Qed.
Scheme error_text_ind' := Minimality for error_text Sort Prop
  with msg_text_ind' := Minimality for msg_text Sort Prop
  with piece_text_ind' := Minimality for piece_text Sort Prop.
Lemma error_text_only w e : error_text dd w e -> w = fmt_error dd e.
Proof.
  apply (error_text_ind' F dd (fun w e => w = fmt_error dd e) (fun w m => w = fmt_msg dd m) (fun w x => w = fmt_piece dd x)); try reflexivity.
  - intros w' m _ ->. now rewrite fmt_error_str.
  - intros w1 w2 x m _ -> _ ->. reflexivity.
  - intros w1 p H. now apply place_text_iff in H.
  - intros w1 s H. now apply quoted_iff in H.
  - intros w1 n H. exact (number_unique _ _ _ H (fmt_usize_text n)).
  - intros w1 t H. now apply token_text_iff in H.
  - intros w1 e1 _ ->. reflexivity.
  - intros w1 w2 m _ -> H. apply quoted_iff in H as ->. rewrite <- fmt_error_str. reflexivity.
Qed.
Lemma error_text_iff w e : error_text dd w e <-> w = fmt_error dd e.
Proof. split; [apply error_text_only|intros ->; apply error_text_shown]. Qed.
End Texts.
