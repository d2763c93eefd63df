(** The parser treats places, numbers, strings and names of parameters alike whatever they are. *)
From Verif Require Import Base TokModel ParModel SceneSpec ParProofs LikeSpec.
Open Scope mon_scope.

Section Like.
Context {F G : Type} (fo : FloatOps F) (go : FloatOps G).
Context (Rp : Pos -> Pos -> Prop) (Ri : Z -> Z -> Prop) (Rf : F -> G -> Prop) (Rs Rn : str -> str -> Prop).
Hypothesis Hif : forall i j, Ri i j -> Rf (f_of_isize fo i) (f_of_isize go j).
Hypothesis Hs : forall s t, Rs s t -> exchangeable Rn s t.

Notation lty := (like_ty Ri Rf Rs).
Notation ltok := (like_tok Rp Ri Rf Rs).
Notation lerr := (like_error Rp Ri Rf Rs).
Notation lps := (like_ps Rp Ri Rf Rs Rn).
Notation lds := (like_ds Rp Ri Rf Rs Rn).
Notation ldir := (like_dir Rp Ri Rf Rs Rn).
Notation lpre := (like_pre Rp Ri Rf Rs Rn).

Definition rres {A B} (R : A -> B -> Prop) (E : error F -> error G -> Prop) (r : result A (error F)) (r' : result B (error G)) : Prop :=
  match r, r' with Ok a, Ok b => R a b | Err e, Err e' => E e e' | _, _ => False end.
Definition rst (p : @parser F) (q : @parser G) : Prop := Forall2 ltok (pr_tokens p) (pr_tokens q) /\ pr_index p = pr_index q.
Definition rel {A B} (R : A -> B -> Prop) (p : M (@parser F) A) (q : M (@parser G) B) : Prop :=
  forall s t, rst s t ->
    match p s, q t with
    | Done (a, s'), Done (b, t') => R a b /\ rst s' t'
    | Panic, Panic => True
    | OutOfFuel, OutOfFuel => True
    | _, _ => False
    end.
Notation rl R := (rel (rres R lerr)).

Lemma r_ret {A B} (R : A -> B -> Prop) a b : R a b -> rel R (ret a) (ret b).
Proof. intros H s t E. split; assumption. Qed.
Lemma r_bind {A B C D} (R : A -> B -> Prop) (R' : C -> D -> Prop) p q k k' :
  rel R p q -> (forall a b, R a b -> rel R' (k a) (k' b)) -> rel R' (bind p k) (bind q k').
Proof.
  intros H K s t E. unfold bind. specialize (H s t E). destruct (p s) as [[a s']| |], (q t) as [[b t']| |]; try easy.
  destruct H as [H E']. now apply K.
Qed.
Lemma r_tryb {A B C D} (R : A -> B -> Prop) (R' : C -> D -> Prop) (Er : error F -> error G -> Prop) p q k k' :
  rel (rres R Er) p q -> (forall a b, R a b -> rel (rres R' Er) (k a) (k' b)) -> rel (rres R' Er) (tryb p k) (tryb q k').
Proof.
  intros H K. unfold tryb. eapply r_bind; [exact H|]. intros [a|e] [b|e'] X; cbn [rres] in X; try contradiction; [now apply K|now apply r_ret].
Qed.
Lemma r_fuel {A B} (R : A -> B -> Prop) : rel R out_of_fuel out_of_fuel.
Proof. intros s t _. exact I. Qed.
Lemma r_panic {A B} (R : A -> B -> Prop) : rel R panic panic.
Proof. intros s t _. exact I. Qed.
Lemma r_if {A B} (R : A -> B -> Prop) (b : bool) p p' q q' :
  rel R p q -> rel R p' q' -> rel R (if b then p else p') (if b then q else q').
Proof. now destruct b. Qed.
Lemma r_weak {A B} (R : A -> B -> Prop) (E E' : error F -> error G -> Prop) p q : (forall e e', E e e' -> E' e e') ->
  rel (rres R E) p q -> rel (rres R E') p q.
Proof.
  intros W H s t X. specialize (H s t X). destruct (p s) as [[[a|e] s']| |], (q t) as [[[b|e'] t']| |]; cbn in *; try easy.
  destruct H. split; auto.
Qed.

Ltac bnd L := eapply r_bind; [eapply L|]; intros.
Ltac tr L := eapply r_tryb; [eapply L|]; intros.

Lemma rlen s t : rst s t -> List.length (pr_tokens s) = List.length (pr_tokens t).
Proof. intros [H _]. induction H; cbn; congruence. Qed.
Lemma nth_like : forall l l' n, Forall2 ltok l l' ->
  match nth_error l n, nth_error l' n with Some a, Some b => ltok a b | None, None => True | _, _ => False end.
Proof. intros l l' n H. revert n. induction H as [|x y l l' Hx H IH]; intros [|n]; cbn; try easy. apply IH. Qed.
Lemma rempty s t : rst s t -> pr_is_empty s = pr_is_empty t.
Proof. intros H. unfold pr_is_empty. rewrite (rlen _ _ H). now destruct H as [_ ->]. Qed.
Lemma rpeek : rl ltok pr_peek pr_peek.
Proof.
  intros s t H. unfold pr_peek. rewrite (rempty s t H). destruct (negb _); [|split; [constructor|assumption]].
  destruct H as [H E]. rewrite <- E. pose proof (nth_like _ _ (pr_index s) H) as X.
  destruct (nth_error _ _), (nth_error _ _); try contradiction; try exact I. split; [exact X|now split].
Qed.
Lemma rnext : rl ltok pr_next pr_next.
Proof.
  intros s t H. unfold pr_next. rewrite (rempty s t H). destruct (pr_is_empty t); [split; [constructor|assumption]|].
  destruct H as [H E]. rewrite <- E. pose proof (nth_like _ _ (pr_index s) H) as X.
  destruct (nth_error _ _), (nth_error _ _); try contradiction; try exact I. split; [exact X|now split].
Qed.
Lemma rpos : rl Rp pr_pos pr_pos.
Proof.
  intros s t H. unfold pr_pos. rewrite (rlen s t H). destruct H as [H E]. rewrite <- E.
  destruct (_ <=? _); [split; [constructor|now split]|]. pose proof (nth_like _ _ (pr_index s) H) as X.
  destruct (nth_error _ _), (nth_error _ _); try contradiction; try exact I. destruct X. split; [assumption|now split].
Qed.
Lemma rget : rel rst get get.
Proof. intros s t H. now split. Qed.
Lemma rfuel s t : rst s t -> pr_fuel s = pr_fuel t.
Proof. intros H. unfold pr_fuel. now rewrite (rlen _ _ H). Qed.
Lemma rvidx {A B} (R : A -> B -> Prop) l l' i : Forall2 R l l' -> rel R (vidx l i) (vidx l' i).
Proof.
  intros H. unfold vidx. revert i. induction H as [|x y l l' Hx H IH]; intros [|i]; cbn.
  - apply r_panic.
  - apply r_panic.
  - now apply r_ret.
  - apply IH.
Qed.

Lemma perr l l' : Forall2 (like_piece Rp Ri Rf Rs) l l' -> forall A B (R : A -> B -> Prop),
  rl R (ret (Err (EStr l))) (ret (Err (EStr l'))).
Proof. intros H A B R. apply r_ret. now constructor. Qed.
Ltac pieces := first [apply perr | apply r_ret; cbn [rres]; apply le_str]; repeat (constructor; try assumption).
Ltac pk := eapply r_bind; [apply rpeek|];
  let a := fresh "a" in let b := fresh "b" in let H := fresh "T" in
  intros [a|a] [b|b] H; cbn [rres] in H; try contradiction;
  [destruct a as [?p ?ty], b as [?q ?ty]; destruct H as [?P H]; cbn [tok_pos tok_ty] in *; destruct H
  |destruct H; [pieces|apply r_ret; now constructor]].
Ltac bad := pieces.
Ltac okr := apply r_ret; cbn [rres]; try assumption.

Lemma rint : rl Ri (parse_int (F := F)) (parse_int (F := G)).
Proof. unfold parse_int. pk; try bad. bnd rnext. okr. Qed.
Lemma rstring : rl Rs (parse_string (F := F)) (parse_string (F := G)).
Proof. unfold parse_string. pk; try bad. bnd rnext. okr. Qed.
Lemma rident : rl eq (parse_identifier (F := F)) (parse_identifier (F := G)).
Proof. unfold parse_identifier. pk; try bad. bnd rnext. okr. reflexivity. Qed.
Lemma str_eqb_iff s t u : (s = u <-> t = u) -> str_eqb s u = str_eqb t u.
Proof.
  intros H. destruct (str_eqb s u) eqn:E1, (str_eqb t u) eqn:E2; try reflexivity.
  - apply str_eqb_eq in E1. apply H in E1. apply str_eqb_eq in E1. congruence.
  - apply str_eqb_eq in E2. apply H in E2. apply str_eqb_eq in E2. congruence.
Qed.
Lemma rbool : rl eq (parse_bool (F := F)) (parse_bool (F := G)).
Proof.
  unfold parse_bool. pk; try bad. destruct (Hs _ _ H) as (E1 & E2 & _ & _).
  rewrite (str_eqb_iff _ _ _ E1), (str_eqb_iff _ _ _ E2).
  apply r_if; [tr rnext; okr; reflexivity|]. apply r_if; [tr rnext; okr; reflexivity|bad].
Qed.
Lemma rfloat : rl Rf (parse_float fo) (parse_float go).
Proof. unfold parse_float. pk; try bad; tr rnext; okr. now apply Hif. Qed.

Section Lists.
Context {A B : Type} (R : A -> B -> Prop) (p : M (@parser F) (result A (error F))) (q : M (@parser G) (result B (error G))).
Hypothesis H : rl R p q.
Context (name : string).
Lemma rmany_loop fuel : forall vs ws, Forall2 R vs ws -> rl (Forall2 R) (parse_many_loop p name fuel vs) (parse_many_loop q name fuel ws).
Proof.
  induction fuel as [|n IH]; intros vs ws Hv; cbn [parse_many_loop]; [apply r_fuel|].
  bnd H. destruct a as [v|e], b as [w|e']; cbn [rres] in H0; try contradiction.
  - apply IH. apply Forall2_app; [assumption|now constructor].
  - destruct Hv; [bad|]. okr. now constructor.
Qed.
Lemma rmany : rl (Forall2 R) (parse_many p name) (parse_many q name).
Proof. unfold parse_many. bnd rget. rewrite (rfuel _ _ H0). now apply rmany_loop. Qed.
Lemma rset i : rel (@eq unit) (set_index (F := F) i) (set_index (F := G) i).
Proof. intros s t [X _]. split; [reflexivity|now split]. Qed.
Lemma rn_loop n i k : forall vs ws, Forall2 R vs ws -> rl (Forall2 R) (parse_n_loop p n name i k vs) (parse_n_loop q n name i k ws).
Proof.
  induction k as [|k IH]; intros vs ws Hv; cbn [parse_n_loop]; [now okr|].
  bnd H. destruct a as [v|e], b as [w|e']; cbn [rres] in H0; try contradiction.
  - apply IH. apply Forall2_app; [assumption|now constructor].
  - bnd rset. bad.
Qed.
Lemma rn n : rl (Forall2 R) (parse_n p n name) (parse_n q n name).
Proof. unfold parse_n. apply r_if; [|apply r_panic]. bnd rget. destruct H0 as [_ ->]. now apply rn_loop. Qed.
Lemma rlist : rl (Forall2 R) (parse_list p name) (parse_list q name).
Proof.
  unfold parse_list. pk; try bad. bnd rnext. tr rmany. pk; try bad. destruct H1; [bad|]. tr rnext. okr. now constructor.
Qed.
Lemma rlist_n n : rl (Forall2 R) (parse_list_of_n p n name) (parse_list_of_n q n name).
Proof.
  unfold parse_list_of_n. pk; try bad. bnd rnext. tr rn. pk; try bad. destruct H1; [bad|]. tr rnext. okr. now constructor.
Qed.
Lemma rone : rl (Forall2 R) (parse_one_or_list p name) (parse_one_or_list q name).
Proof. unfold parse_one_or_list. pk; try (tr H; okr; now repeat constructor). apply rlist. Qed.
End Lists.
Lemma rp2 : rl (like_p2 Rf) (parse_point2f fo) (parse_point2f go).
Proof. unfold parse_point2f. eapply r_tryb; [apply rn, rfloat|]. intros l l' X. bnd (rvidx Rf); [exact X|]. bnd (rvidx Rf); [exact X|]. okr. now split. Qed.
Lemma rv2 : rl (like_v2 Rf) (parse_vector2f fo) (parse_vector2f go).
Proof. unfold parse_vector2f. eapply r_tryb; [apply rn, rfloat|]. intros l l' X. bnd (rvidx Rf); [exact X|]. bnd (rvidx Rf); [exact X|]. okr. now split. Qed.
Lemma chunks_like : forall n l l', List.length l <= n -> Forall2 Rf l l' ->
  match chunks2 l, chunks2 l' with
  | Done a, Done b => Forall2 (fun x y => Rf (fst x) (fst y) /\ Rf (snd x) (snd y)) a b
  | Panic, Panic => True
  | _, _ => False
  end.
Proof.
  induction n as [|n IH]; intros l l' Hn X; [destruct X; [constructor|cbn in Hn; lia]|].
  destruct X as [|x y l l' Hx X]; [constructor|]. destruct X as [|x' y' l l' Hx' X]; [exact I|]. cbn [chunks2 List.length] in *.
  specialize (IH l l' ltac:(lia) X). destruct (chunks2 l), (chunks2 l'); cbn [obind]; try contradiction; try exact I.
  constructor; [now split|assumption].
Qed.
Lemma len_like {A B} (R : A -> B -> Prop) l l' : Forall2 R l l' -> List.length l = List.length l'.
Proof. intros H. induction H; cbn; congruence. Qed.
Lemma rspectrum : rl (like_spectrum Rf Rs) (parse_spectrum fo) (parse_spectrum go).
Proof.
  unfold parse_spectrum. pk; try bad; [tr rnext; okr; now constructor|].
  eapply r_tryb; [apply rlist, rfloat|]. intros l l' X. rewrite (len_like _ _ _ X). apply r_if; [bad|].
  pose proof (chunks_like _ l l' (le_n _) X) as Y. intros s t E. unfold bind, lift.
  destruct (chunks2 l), (chunks2 l'); try contradiction; try exact I. split; [now constructor|assumption].
Qed.
Lemma push {A B} (R : A -> B -> Prop) l l' name name' p q vs ws : Forall2 (like_param Rp Rn R) l l' -> Rn name name' -> Rp p q ->
  Forall2 R vs ws -> Forall2 (like_param Rp Rn R) (l ++ [mkParam name p vs]) (l' ++ [mkParam name' q ws]).
Proof. intros H1 H2 H3 H4. apply Forall2_app; [assumption|]. constructor; [now repeat split|constructor]. Qed.
Definition anyerr (e : error F) (e' : error G) : Prop := True.
Lemma rparam ps qs : lps ps qs -> rel (rres lps anyerr) (parse_param_list fo ps) (parse_param_list go qs).
Proof.
  intros Hp. unfold parse_param_list. eapply r_bind; [apply rpeek|]. intros [a|a] [b|b] T; cbn [rres] in T; try contradiction.
  2: destruct T; apply r_ret; exact I.
  destruct a as [p ty0], b as [q ty0']; destruct T as [P T]; cbn [tok_pos tok_ty] in *; destruct T; try (apply r_ret; exact I).
  destruct (Hs _ _ H) as (_ & _ & E3 & E4).
  destruct (split_whitespace s) as [|ty [|var [|z l]]] eqn:Es.
  3: { pose proof (split_header _ _ _ Es) as X. apply E3 in X as (var' & X & Hn). apply header_split in X. rewrite X.
       destruct Hp as [Ha Hb Hc Hd He [Hf Hf'] [Hg Hg'] [Hh Hh'] Hi Hj Hk].
       assert (W : forall A B (R : A -> B -> Prop) p q, rl R p q -> rel (rres R anyerr) p q).
       { intros A B R u v. apply r_weak. intros. exact I. }
       apply r_if. { tr (W _ _ _ _ _ rnext). eapply r_tryb; [apply W, rone, rint|]. intros l l' X'. okr. constructor; cbn; try easy. now apply push. }
       apply r_if. { tr (W _ _ _ _ _ rnext). eapply r_tryb; [apply W, rone, rfloat|]. intros l l' X'. okr. constructor; cbn; try easy. now apply push. }
       apply r_if. { tr (W _ _ _ _ _ rnext). eapply r_tryb; [apply W, rlist, rp2|]. intros l l' X'. okr. constructor; cbn; try easy. now apply push. }
       apply r_if. { tr (W _ _ _ _ _ rnext). eapply r_tryb; [apply W, rlist, rv2|]. intros l l' X'. okr. constructor; cbn; try easy. now apply push. }
       apply r_if. { tr (W _ _ _ _ _ rnext). eapply r_tryb; [apply W, rone, rbool|]. intros l l' X'. okr. constructor; cbn; try easy. now apply push. }
       apply r_if. { tr (W _ _ _ _ _ rnext). eapply r_tryb; [apply W, rone, rstring|]. intros l l' X'. okr. constructor; cbn; try easy. now apply push. }
       apply r_if. { tr (W _ _ _ _ _ rnext). eapply r_tryb; [apply W, rlist_n, rfloat|]. intros l l' X'. do 3 (bnd (rvidx Rf); [exact X'|]). okr. constructor; cbn; try easy. apply push; try assumption. now repeat constructor. }
       apply r_if. { tr (W _ _ _ _ _ rnext). eapply r_tryb; [apply W, rlist_n, rfloat|]. intros l l' X'. do 3 (bnd (rvidx Rf); [exact X'|]). okr. constructor; cbn; try easy. apply push; try assumption. now repeat constructor. }
       apply r_if. { tr (W _ _ _ _ _ rnext). eapply r_tryb; [apply W, rspectrum|]. intros l l' X'. okr. constructor; cbn; try easy. apply push; try assumption. now repeat constructor. }
       apply r_if. { tr (W _ _ _ _ _ rnext). eapply r_tryb; [apply W, rlist_n, rfloat|]. intros l l' X'. do 2 (bnd (rvidx Rf); [exact X'|]). okr. constructor; cbn; try easy. apply push; try assumption. now repeat constructor. }
       apply r_if; [|apply r_ret; exact I]. tr (W _ _ _ _ _ rnext). eapply r_tryb; [apply W, rstring|]. intros l l' X'. okr. constructor; cbn; try easy. apply push; try assumption. now repeat constructor. }
  all: assert (N : forall a b, split_whitespace t <> [a; b]) by
    (intros a b Q; apply split_header, E4 in Q as (w & Q); apply header_split in Q; congruence).
  all: destruct (split_whitespace t) as [|ty' [|var' [|z' l']]]; try (exfalso; eapply N; reflexivity); apply r_ret; exact I.
Qed.
Lemma rparams_loop fuel : forall ps qs, lps ps qs -> rel lps (parse_param_lists_loop fo fuel ps) (parse_param_lists_loop go fuel qs).
Proof.
  induction fuel as [|n IH]; intros ps qs Hp; cbn [parse_param_lists_loop]; [apply r_fuel|].
  eapply r_bind; [now apply rparam|]. intros [x|e] [y|e'] X; cbn [rres] in X; try contradiction; [now apply IH|now apply r_ret].
Qed.
Lemma rparams ps qs : lps ps qs -> rl lps (parse_param_lists fo ps) (parse_param_lists go qs).
Proof. intros Hp. unfold parse_param_lists. bnd rget. rewrite (rfuel _ _ H). eapply r_bind; [now apply rparams_loop|]. intros a' b' X. okr. Qed.
Lemma lps_empty : lps ps_empty ps_empty.
Proof. constructor; cbn; try constructor; reflexivity. Qed.
Lemma rstruct p q : Rp p q -> rl lds (parse_struct fo p) (parse_struct go q).
Proof. intros Hp. unfold parse_struct. tr rstring. eapply r_tryb; [apply rparams, lps_empty|]. intros ps qs X. okr. now split. Qed.
Lemma rdir_body b b' : rl (Forall2 ldir) b b' -> rl ldir (parse_directive_body fo b) (parse_directive_body go b').
Proof.
  intros Hb. unfold parse_directive_body. eapply r_tryb; [apply rpos|]. intros p q Hp. eapply r_tryb; [apply rident|]. intros w w' <-.
  do 4 (apply r_if; [eapply r_tryb; [now apply rstruct|]; intros; okr; now constructor|]).
  do 3 (apply r_if; [eapply r_tryb; [apply Hb|]; intros; okr; now constructor|]).
  apply r_if; [tr rstring; okr; now constructor|]. apply r_if; [|bad].
  tr rstring. tr rstring. tr rstring. eapply r_tryb; [apply rparams, lps_empty|]. intros ps qs X. okr. constructor. now split.
Qed.
Lemma rdirs_loop fuel : forall l l', Forall2 ldir l l' -> rl (Forall2 ldir) (parse_directives_loop fo fuel l) (parse_directives_loop go fuel l').
Proof.
  induction fuel as [|n IH]; intros l l' Hl; cbn [parse_directives_loop]; [apply r_fuel|].
  eapply r_tryb; [apply rpeek|]. intros [p ty] [q ty'] [Hp T]. cbn [tok_ty tok_pos] in *. destruct T; try bad.
  apply r_if; [now okr|]. eapply r_tryb; [apply rdir_body; now apply IH|]. intros d d' X. apply IH.
  apply Forall2_app; [assumption|now repeat constructor].
Qed.
Lemma rdir : rl ldir (parse_directive fo) (parse_directive go).
Proof. unfold parse_directive. apply rdir_body. unfold parse_directives. bnd rget. rewrite (rfuel _ _ H). now apply rdirs_loop. Qed.
Lemma rvec3 l l' i : Forall2 Rf l l' -> rel (like_v3 Rf) (vec3_at l i) (vec3_at l' i).
Proof. intros X. unfold vec3_at. do 3 (bnd (rvidx Rf); [exact X|]). apply r_ret. now repeat split. Qed.
Lemma rmat3 l l' : Forall2 Rf l l' -> rel (like_m3 Rf) (mat3_of l) (mat3_of l').
Proof. intros X. unfold mat3_of. do 9 (bnd (rvidx Rf); [exact X|]). apply r_ret. now repeat split. Qed.
Lemma rexactly p q w n : Rp p q -> rl (Forall2 Rf) (floats_exactly fo p w n) (floats_exactly go q w n).
Proof.
  intros Hp. unfold floats_exactly, parse_floats. eapply r_tryb; [apply rmany, rfloat|]. intros l l' X. rewrite (len_like _ _ _ X).
  apply r_if; [bad|now okr].
Qed.
Lemma rpre : rl lpre (parse_predirective fo) (parse_predirective go).
Proof.
  unfold parse_predirective. eapply r_tryb; [apply rpos|]. intros p q Hp. eapply r_tryb; [apply rident|]. intros w w' <-.
  Ltac ex Hp X := eapply r_tryb; [apply rexactly; exact Hp|]; intros ?l ?l' X.
  apply r_if; [okr; now constructor|].
  do 2 (apply r_if; [ex Hp X; eapply r_bind; [apply rvec3; exact X|]; intros; okr; now constructor|]).
  apply r_if; [ex Hp X; bnd (rvidx Rf); [exact X|]; eapply r_bind; [apply rvec3; exact X|]; intros; okr; now constructor|].
  apply r_if; [ex Hp X; eapply r_bind; [apply rmat3; exact X|]; intros; okr; now constructor|].
  do 2 (apply r_if; [tr rstring; okr; now constructor|]).
  do 2 (apply r_if; [ex Hp X; eapply r_bind; [apply rmat3; exact X|]; intros; okr; now constructor|]).
  apply r_if; [eapply r_tryb; [apply rident|]; intros v v' <-; okr; now constructor|].
  apply r_if; [ex Hp X; do 2 (bnd (rvidx Rf); [exact X|]); okr; now constructor|].
  do 6 (apply r_if; [eapply r_tryb; [now apply rstruct|]; intros; okr; now constructor|]).
  apply r_if; [tr rstring; okr; now constructor|bad].
Qed.
Lemma rpres_loop fuel : forall l l', Forall2 lpre l l' -> rl (Forall2 lpre) (parse_predirectives_loop fo fuel l) (parse_predirectives_loop go fuel l').
Proof.
  induction fuel as [|n IH]; intros l l' Hl; cbn [parse_predirectives_loop]; [apply r_fuel|].
  eapply r_tryb; [apply rpeek|]. intros [p ty] [q ty'] [Hp T]. cbn [tok_ty tok_pos] in *. destruct T; try bad.
  apply r_if; [now okr|]. eapply r_tryb; [apply rpre|]. intros d d' X. apply IH.
  apply Forall2_app; [assumption|now repeat constructor].
Qed.
Lemma rtokens : rl (like_scene Rp Ri Rf Rs Rn) (parse_tokens_m fo) (parse_tokens_m go).
Proof.
  unfold parse_tokens_m, parse_predirectives. eapply r_tryb.
  - bnd rget. rewrite (rfuel _ _ H). now apply rpres_loop.
  - intros l l' X. eapply r_tryb; [apply rdir|]. intros d d' Y. okr. now split.
Qed.
Lemma parse_tokens_like ts ts' : Forall2 ltok ts ts' ->
  like_outcome Rp Ri Rf Rs Rn (parse_tokens fo ts) (parse_tokens go ts').
Proof.
  intros H. unfold parse_tokens. pose proof (rtokens (mkPr ts 0) (mkPr ts' 0) (conj H eq_refl)) as E.
  destruct (parse_tokens_m fo _) as [[[a|e] st]| |], (parse_tokens_m go _) as [[[b|e'] st']| |]; cbn in *; tauto.
Qed.
End Like.
