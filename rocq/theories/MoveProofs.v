(** The parser only carries positions along. *)
From Verif Require Import Base TokModel ParModel MoveSpec.
Open Scope mon_scope.

Section Hom.
Context {F : Type} (fo : FloatOps F) (h : Pos -> Pos).

Definition mres {A B} (g : A -> B) (r : result A (error F)) : result B (error F) :=
  match r with Ok a => Ok (g a) | Err e => Err (mv_error h e) end.
Definition mout {S S' A B} (gs : S -> S') (g : A -> B) (x : out (A * S)) : out (B * S') :=
  match x with Done (a, s) => Done (g a, gs s) | Panic => Panic | OutOfFuel => OutOfFuel end.

Section Gen.
Context {S S' : Type} (gs : S -> S').
(** [nat g p q]: [q] is [p] on mapped states, with the mapped result. *)
Definition nat_ {A B} (g : A -> B) (p : M S A) (q : M S' B) : Prop := forall st, q (gs st) = mout gs g (p st).

Lemma nat_ret {A B} (g : A -> B) a b : b = g a -> nat_ g (ret a) (ret b).
Proof. intros -> st. reflexivity. Qed.
Lemma nat_bind {A B C D} (g : A -> B) (g' : C -> D) p q k k' :
  nat_ g p q -> (forall a, nat_ g' (k a) (k' (g a))) -> nat_ g' (bind p k) (bind q k').
Proof.
  intros H K st. unfold bind. rewrite H. destruct (p st) as [[a s]| |]; cbn; [apply K|reflexivity|reflexivity].
Qed.
Lemma nat_tryb {A B C D} (g : A -> B) (g' : C -> D) (p : M S (result A (error F))) (q : M S' (result B (error F))) k k' :
  nat_ (mres g) p q -> (forall a, nat_ (mres g') (k a) (k' (g a))) -> nat_ (mres g') (tryb p k) (tryb q k').
Proof.
  intros H K. unfold tryb. eapply nat_bind; [exact H|]. intros [a|e]; [apply K|]. apply nat_ret. reflexivity.
Qed.
Lemma nat_fuel {A B} (g : A -> B) : nat_ g out_of_fuel out_of_fuel.
Proof. intros st. reflexivity. Qed.
Lemma nat_panic {A B} (g : A -> B) : nat_ g panic panic.
Proof. intros st. reflexivity. Qed.
Lemma nat_lift {A} (x : out A) : nat_ id (lift x) (lift x).
Proof. intros st. unfold lift. destruct x; reflexivity. Qed.
Lemma nat_if {A B} (g : A -> B) (b : bool) p p' q q' :
  nat_ g p q -> nat_ g p' q' -> nat_ g (if b then p else p') (if b then q else q').
Proof. now destruct b. Qed.
End Gen.

Ltac bnd L := eapply nat_bind; [eapply L|]; intros.
Ltac tr L := eapply nat_tryb; [eapply L|]; intros.
Ltac rt := apply nat_ret; reflexivity.

(** ** Parser *)
Definition mst (p : @parser F) : @parser F := mkPr (map (mv_tok h) (pr_tokens p)) (pr_index p).
Notation pn := (nat_ mst).
Lemma empty_h p : pr_is_empty (mst p) = pr_is_empty p.
Proof. unfold pr_is_empty, mst; cbn. now rewrite map_length. Qed.
Lemma ppeek : pn (mres (mv_tok h)) pr_peek pr_peek.
Proof.
  intros st. unfold pr_peek. rewrite empty_h. destruct (negb _); [|reflexivity]. cbn [mst pr_tokens pr_index].
  rewrite nth_error_map. destruct (nth_error _ _); reflexivity.
Qed.
Lemma pnext : pn (mres (mv_tok h)) pr_next pr_next.
Proof.
  intros st. unfold pr_next. rewrite empty_h. destruct (pr_is_empty st); [reflexivity|]. cbn [mst pr_tokens pr_index].
  rewrite nth_error_map. destruct (nth_error _ _); reflexivity.
Qed.
Lemma ppos : pn (mres h) pr_pos pr_pos.
Proof.
  intros st. unfold pr_pos. cbn [mst pr_tokens pr_index]. rewrite map_length.
  destruct (_ <=? _); [reflexivity|]. rewrite nth_error_map. destruct (nth_error _ _); reflexivity.
Qed.
Lemma pvidx {A} (l : list A) i : pn id (vidx l i) (vidx l i).
Proof. unfold vidx. destruct (nth_error l i); [rt|apply nat_panic]. Qed.
Lemma pget : pn mst get get.
Proof. intros st. reflexivity. Qed.
Lemma fuel_h st : pr_fuel (mst st) = pr_fuel st.
Proof. unfold pr_fuel, mst; cbn. now rewrite map_length. Qed.

Ltac tok t := destruct t as [?p [?w|?i|?x|?w| |]]; unfold mv_tok; cbn [tok_ty tok_pos].
Ltac pk := eapply nat_bind; [apply ppeek|]; intros [t|[l|]]; cbn [mres mv_error]; [tok t|rt|rt]; try rt.
Lemma pint : pn (mres id) (parse_int (F := F)) (parse_int (F := F)).
Proof. unfold parse_int. pk. bnd pnext. rt. Qed.
Lemma pstring : pn (mres id) (parse_string (F := F)) (parse_string (F := F)).
Proof. unfold parse_string. pk. bnd pnext. rt. Qed.
Lemma pident : pn (mres id) (parse_identifier (F := F)) (parse_identifier (F := F)).
Proof. unfold parse_identifier. pk. bnd pnext. rt. Qed.
Lemma pbool : pn (mres id) (parse_bool (F := F)) (parse_bool (F := F)).
Proof. unfold parse_bool. pk. apply nat_if; [tr pnext; rt|]. apply nat_if; [tr pnext; rt|rt]. Qed.
Lemma pfloat : pn (mres id) (parse_float fo) (parse_float fo).
Proof. unfold parse_float. pk; tr pnext; rt. Qed.

Section Lists.
Context {A : Type} (p : M (@parser F) (result A (error F))) (H : pn (mres id) p p).
Context (name : string).
Lemma pmany_loop fuel : forall vs, pn (mres id) (parse_many_loop p name fuel vs) (parse_many_loop p name fuel vs).
Proof.
  induction fuel as [|n IH]; intros vs; cbn [parse_many_loop]; [apply nat_fuel|].
  bnd H. destruct a as [v|e]; cbn [mres]; [apply IH|]. destruct vs; rt.
Qed.
Lemma pmany : pn (mres id) (parse_many p name) (parse_many p name).
Proof. unfold parse_many. bnd pget. rewrite fuel_h. apply pmany_loop. Qed.
Lemma pn_loop n st k : forall vs, pn (mres id) (parse_n_loop p n name st k vs) (parse_n_loop p n name st k vs).
Proof.
  induction k as [|k IH]; intros vs; cbn [parse_n_loop]; [rt|].
  bnd H. destruct a as [v|e]; cbn [mres]; [apply IH|]. eapply (nat_bind _ id); [intros s; reflexivity|]. intros _. rt.
Qed.
Lemma pn_ n : pn (mres id) (parse_n p n name) (parse_n p n name).
Proof. unfold parse_n. apply nat_if; [|apply nat_panic]. bnd pget. apply pn_loop. Qed.
Lemma plist : pn (mres id) (parse_list p name) (parse_list p name).
Proof. unfold parse_list. pk. bnd pnext. tr pmany. pk. unfold id at 1. destruct a0; [rt|]. tr pnext. rt. Qed.
Lemma plist_n n : pn (mres id) (parse_list_of_n p n name) (parse_list_of_n p n name).
Proof. unfold parse_list_of_n. pk. bnd pnext. tr pn_. pk. unfold id at 1. destruct a0; [rt|]. tr pnext. rt. Qed.
Lemma pone : pn (mres id) (parse_one_or_list p name) (parse_one_or_list p name).
Proof. unfold parse_one_or_list. pk; try (tr H; rt). apply plist. Qed.
End Lists.
Lemma pp2 : pn (mres id) (parse_point2f fo) (parse_point2f fo).
Proof. unfold parse_point2f. eapply nat_tryb; [apply pn_, pfloat|]. intros l. bnd @pvidx. bnd @pvidx. rt. Qed.
Lemma pv2 : pn (mres id) (parse_vector2f fo) (parse_vector2f fo).
Proof. unfold parse_vector2f. eapply nat_tryb; [apply pn_, pfloat|]. intros l. bnd @pvidx. bnd @pvidx. rt. Qed.
Lemma pspectrum : pn (mres id) (parse_spectrum fo) (parse_spectrum fo).
Proof.
  unfold parse_spectrum. pk; [tr pnext; rt|].
  eapply nat_tryb; [apply plist, pfloat|]. intros l. apply nat_if; [rt|].
  eapply (nat_bind _ id); [|intros x; rt]. intros st. unfold lift, id. destruct (chunks2 l); reflexivity.
Qed.
Lemma map_app1 {A B} (g : A -> B) l x : map g (l ++ [x]) = map g l ++ [g x].
Proof. now rewrite map_app. Qed.
Lemma pparam ps : pn (mres (mv_ps h)) (parse_param_list fo ps) (parse_param_list fo (mv_ps h ps)).
Proof.
  unfold parse_param_list. pk. destruct (split_whitespace w) as [|ty [|var [|z l]]]; try rt.
  destruct ps as [bs is fs p2 v2 p3 v3 n3 sp ss ts].
  apply nat_if. { tr pnext. eapply nat_tryb; [apply pone, pint|]. intros l. apply nat_ret. cbn. unfold ps_push_int, mv_param; cbn. now rewrite map_app1. }
  apply nat_if. { tr pnext. eapply nat_tryb; [apply pone, pfloat|]. intros l. apply nat_ret. cbn. unfold ps_push_float, mv_param; cbn. now rewrite map_app1. }
  apply nat_if. { tr pnext. eapply nat_tryb; [apply plist, pp2|]. intros l. apply nat_ret. cbn. unfold ps_push_point2, mv_param; cbn. now rewrite map_app1. }
  apply nat_if. { tr pnext. eapply nat_tryb; [apply plist, pv2|]. intros l. apply nat_ret. cbn. unfold ps_push_vector2, mv_param; cbn. now rewrite map_app1. }
  apply nat_if. { tr pnext. eapply nat_tryb; [apply pone, pbool|]. intros l. apply nat_ret. cbn. unfold ps_push_bool, mv_param; cbn. now rewrite map_app1. }
  apply nat_if. { tr pnext. eapply nat_tryb; [apply pone, pstring|]. intros l. apply nat_ret. cbn. unfold ps_push_string, mv_param; cbn. now rewrite map_app1. }
  apply nat_if. { tr pnext. eapply nat_tryb; [apply plist_n, pfloat|]. intros l. bnd @pvidx. bnd @pvidx. bnd @pvidx. apply nat_ret. cbn. unfold ps_push_spectrum, mv_param; cbn. now rewrite map_app1. }
  apply nat_if. { tr pnext. eapply nat_tryb; [apply plist_n, pfloat|]. intros l. bnd @pvidx. bnd @pvidx. bnd @pvidx. apply nat_ret. cbn. unfold ps_push_spectrum, mv_param; cbn. now rewrite map_app1. }
  apply nat_if. { tr pnext. eapply nat_tryb; [apply pspectrum|]. intros l. apply nat_ret. cbn. unfold ps_push_spectrum, mv_param; cbn. now rewrite map_app1. }
  apply nat_if. { tr pnext. eapply nat_tryb; [apply plist_n, pfloat|]. intros l. bnd @pvidx. bnd @pvidx. apply nat_ret. cbn. unfold ps_push_spectrum, mv_param; cbn. now rewrite map_app1. }
  apply nat_if; [|rt]. tr pnext. tr pstring. apply nat_ret. cbn. unfold ps_push_texture, mv_param; cbn. now rewrite map_app1.
Qed.
Lemma pparams_loop fuel : forall ps, pn (mv_ps h) (parse_param_lists_loop fo fuel ps) (parse_param_lists_loop fo fuel (mv_ps h ps)).
Proof.
  induction fuel as [|n IH]; intros ps; cbn [parse_param_lists_loop]; [apply nat_fuel|].
  bnd pparam. destruct a as [ps'|e]; cbn [mres]; [apply IH|rt].
Qed.
Lemma pparams ps : pn (mres (mv_ps h)) (parse_param_lists fo ps) (parse_param_lists fo (mv_ps h ps)).
Proof. unfold parse_param_lists. bnd pget. rewrite fuel_h. bnd pparams_loop. rt. Qed.
Lemma pstruct p : pn (mres (mv_ds h)) (parse_struct fo p) (parse_struct fo (h p)).
Proof. unfold parse_struct. tr pstring. eapply nat_tryb; [apply (pparams ps_empty)|]. intros ps. rt. Qed.
Lemma pdir_body b b' : pn (mres (map (mv_dir h))) b b' ->
  pn (mres (mv_dir h)) (parse_directive_body fo b) (parse_directive_body fo b').
Proof.
  intros Hb. unfold parse_directive_body. tr ppos. tr pident. unfold id.
  do 4 (apply nat_if; [tr pstruct; rt|]). do 3 (apply nat_if; [tr Hb; rt|]).
  apply nat_if; [tr pstring; rt|]. apply nat_if; [|rt].
  tr pstring. tr pstring. tr pstring. eapply nat_tryb; [apply (pparams ps_empty)|]. intros ps. rt.
Qed.
Lemma pdirs_loop fuel : forall l, pn (mres (map (mv_dir h))) (parse_directives_loop fo fuel l) (parse_directives_loop fo fuel (map (mv_dir h) l)).
Proof.
  induction fuel as [|n IH]; intros l; cbn [parse_directives_loop]; [apply nat_fuel|].
  tr ppeek. tok a; try rt. apply nat_if; [rt|].
  eapply nat_tryb; [apply pdir_body; apply (IH [])|]. intros d. specialize (IH (l ++ [d])). rewrite map_app in IH. exact IH.
Qed.
Lemma pdir : pn (mres (mv_dir h)) (parse_directive fo) (parse_directive fo).
Proof. unfold parse_directive. apply pdir_body. unfold parse_directives. bnd pget. rewrite fuel_h. apply (pdirs_loop _ []). Qed.
Lemma pvec3 l i : pn id (vec3_at l i) (vec3_at l i).
Proof. unfold vec3_at. do 3 bnd @pvidx. rt. Qed.
Lemma pmat3 l : pn id (mat3_of l) (mat3_of l).
Proof. unfold mat3_of. do 9 bnd @pvidx. rt. Qed.
Lemma pexactly p w n : pn (mres id) (floats_exactly fo p w n) (floats_exactly fo (h p) w n).
Proof.
  unfold floats_exactly, parse_floats. eapply nat_tryb; [apply pmany, pfloat|]. intros l. apply nat_if; rt.
Qed.
Lemma ppre : pn (mres (mv_pre h)) (parse_predirective fo) (parse_predirective fo).
Proof.
  unfold parse_predirective. tr ppos. tr pident. unfold id.
  apply nat_if; [rt|].
  apply nat_if; [tr pexactly; bnd pvec3; rt|]. apply nat_if; [tr pexactly; bnd pvec3; rt|].
  apply nat_if; [tr pexactly; bnd @pvidx; bnd pvec3; rt|].
  apply nat_if; [tr pexactly; bnd pmat3; rt|].
  apply nat_if; [tr pstring; rt|]. apply nat_if; [tr pstring; rt|].
  apply nat_if; [tr pexactly; bnd pmat3; rt|]. apply nat_if; [tr pexactly; bnd pmat3; rt|].
  apply nat_if; [tr pident; rt|].
  apply nat_if; [tr pexactly; bnd @pvidx; bnd @pvidx; rt|].
  do 6 (apply nat_if; [tr pstruct; rt|]). apply nat_if; [tr pstring; rt|rt].
Qed.
Lemma ppres_loop fuel : forall l, pn (mres (map (mv_pre h))) (parse_predirectives_loop fo fuel l) (parse_predirectives_loop fo fuel (map (mv_pre h) l)).
Proof.
  induction fuel as [|n IH]; intros l; cbn [parse_predirectives_loop]; [apply nat_fuel|].
  tr ppeek. tok a; try rt. apply nat_if; [rt|].
  tr ppre. specialize (IH (l ++ [a])). rewrite map_app in IH. exact IH.
Qed.
Lemma ptokens : pn (mres (mv_scene h)) (parse_tokens_m fo) (parse_tokens_m fo).
Proof.
  unfold parse_tokens_m, parse_predirectives. eapply nat_tryb.
  - bnd pget. rewrite fuel_h. apply (ppres_loop _ []).
  - intros l. tr pdir. rt.
Qed.
Lemma parse_tokens_moved ts : parse_tokens fo (map (mv_tok h) ts) = mv_outcome h (mv_scene h) (parse_tokens fo ts).
Proof.
  unfold parse_tokens. pose proof (ptokens (mkPr ts 0)) as E. unfold mst in E at 1; cbn [pr_tokens pr_index] in E. rewrite E; clear E.
  destruct (parse_tokens_m fo {| pr_tokens := ts; pr_index := 0 |}) as [[[a|e] st]| |]; reflexivity.
Qed.
End Hom.
