(** The tokenizer and the parser commute with a map of floats that respects the operations. *)
From Verif Require Import Base TokModel ParModel BuildSpec.
Open Scope mon_scope.

Section Hom.
Context {F G : Type} (fo : FloatOps F) (go : FloatOps G) (h : F -> G).
Context (h_dec : forall n m k, h (f_dec fo n m k) = f_dec go n m k)
        (h_mul : forall a b, h (f_mul fo a b) = f_mul go (h a) (h b))
        (h_pow : forall a, h (f_powf10 fo a) = f_powf10 go (h a))
        (h_int : forall z, h (f_of_isize fo z) = f_of_isize go z).

Definition mres {A B} (g : A -> B) (r : result A (error F)) : result B (error G) :=
  match r with Ok a => Ok (g a) | Err e => Err (map_error h e) end.
Definition mout {S S' A B} (gs : S -> S') (g : A -> B) (x : out (A * S)) : out (B * S') :=
  match x with Done (a, s) => Done (g a, gs s) | Panic => Panic | OutOfFuel => OutOfFuel end.

Section Gen.
Context {S S' : Type} (gs : S -> S').
(** [nat g p q]: [q] is [p] on mapped states, with the mapped result. *)
Definition nat_ {A B} (g : A -> B) (p : M S A) (q : M S' B) : Prop := forall st, q (gs st) = mout gs g (p st).

Lemma nat_ret {A B} (g : A -> B) a b : b = g a -> nat_ g (ret a) (ret b).
Proof. intros -> st. reflexivity. Qed.
Lemma nat_bind {A B C D} (g : A -> B) (g' : C -> D) p q k k' :
  nat_ g p q -> (forall a, nat_ g' (k a) (k' (g a))) -> nat_ g' (bind p k) (bind q k').
Proof.
  intros H K st. unfold bind. rewrite H. destruct (p st) as [[a s]| |]; cbn; [apply K|reflexivity|reflexivity].
Qed.
Lemma nat_tryb {A B C D} (g : A -> B) (g' : C -> D) (p : M S (result A (error F))) (q : M S' (result B (error G))) k k' :
  nat_ (mres g) p q -> (forall a, nat_ (mres g') (k a) (k' (g a))) -> nat_ (mres g') (tryb p k) (tryb q k').
Proof.
  intros H K. unfold tryb. eapply nat_bind; [exact H|]. intros [a|e]; [apply K|]. apply nat_ret. reflexivity.
Qed.
Lemma nat_fuel {A B} (g : A -> B) : nat_ g out_of_fuel out_of_fuel.
Proof. intros st. reflexivity. Qed.
Lemma nat_panic {A B} (g : A -> B) : nat_ g panic panic.
Proof. intros st. reflexivity. Qed.
Lemma nat_lift {A} (x : out A) : nat_ id (lift x) (lift x).
Proof. intros st. unfold lift. destruct x; reflexivity. Qed.
Lemma nat_if {A B} (g : A -> B) (b : bool) p p' q q' :
  nat_ g p q -> nat_ g p' q' -> nat_ g (if b then p else p') (if b then q else q').
Proof. now destruct b. Qed.
End Gen.

(** ** Tokenizer *)
Notation tn := (nat_ (@id tokenizer)).
Lemma map_id_tk st : @id tokenizer st = st. Proof. reflexivity. Qed.
Lemma peek_tn : tn (mres id) (tk_peek (F := F)) (tk_peek (F := G)).
Proof. intros st. unfold tk_peek, id. destruct (negb _); [destruct (nth_error _ _)|]; reflexivity. Qed.
Lemma next_tn : tn (mres id) (tk_next (F := F)) (tk_next (F := G)).
Proof. intros st. unfold tk_next, id. destruct (tk_is_empty st); [|destruct (nth_error _ _)]; reflexivity. Qed.
Lemma pos_tn : tn id cur_pos cur_pos.
Proof. intros st. reflexivity. Qed.
Lemma prev_tn : tn id cur_prev cur_prev.
Proof. intros st. reflexivity. Qed.
Lemma parse_int_loop_h sgn s acc : parse_int_loop (F := G) sgn s acc = mres id (parse_int_loop sgn s acc).
Proof.
  revert acc; induction s as [|c s IH]; intros acc; cbn; [reflexivity|]. destruct (digit_val c); [|reflexivity].
  cbv zeta. destruct (in_range _); [apply IH|reflexivity].
Qed.
Lemma parse_isize_h s : parse_isize (F := G) s = mres id (parse_isize s).
Proof.
  unfold parse_isize. destruct s as [|c [|d s]]; [reflexivity| |];
    repeat match goal with |- context [if ?b then _ else _] => destruct b end; try reflexivity; apply parse_int_loop_h.
Qed.
Lemma parse_float_str_h s : parse_float_str go s = mres h (parse_float_str fo s).
Proof.
  unfold parse_float_str. destruct (match s with [] => _ | _ => _ end) as [neg body].
  destruct s as [|c s]; [reflexivity|]. destruct (scan_dec body 0 0 0 false) as [[[m [|nd]] k]|]; try reflexivity.
  cbn. now rewrite h_dec.
Qed.

Ltac bnd L := eapply nat_bind; [eapply L|]; intros.
Ltac tr L := eapply nat_tryb; [eapply L|]; intros.
Ltac rt := apply nat_ret; reflexivity.
Lemma map_error_EStr l : map_error h (EStr l) = EStr (map (fun p =>
      match p with
      | PText s => PText s | PPos p => PPos p | PChar c => PChar c | PStr s => PStr s | PStrDbg s => PStrDbg s
      | PNat n => PNat n | PTok t => PTok (map_ty h t) | PErr e => PErr (map_error h e) | PErrDbg e => PErrDbg (map_error h e)
      end) l).
Proof. reflexivity. Qed.

Lemma tryb_ret {S A B} (r : result A (error F)) (k : A -> M S (result B (error F))) st :
  tryb (ret r) k st = match r with Ok a => k a st | Err e => Done (Err e, st) end.
Proof. unfold tryb, bind, ret. destruct r; reflexivity. Qed.

Lemma prelude_tn loop loop' : (forall p s b, tn (mres (map_tok h)) (loop p s b) (loop' p s b)) ->
  tn (mres (map_tok h)) (num_prelude loop) (num_prelude loop').
Proof.
  intros H. unfold num_prelude. bnd pos_tn. bnd peek_tn.
  eapply (nat_bind _ id).
  - destruct a0 as [c|e]; cbn [mres]; [|rt]. apply nat_if; [bnd next_tn; rt|]. apply nat_if; [bnd next_tn; rt|rt].
  - intros l. apply H.
Qed.
Lemma exponent_tn chk p s b ex : tn (mres (map_tok h)) (num_exponent fo chk p s b ex) (num_exponent go chk p s b (map_ty h ex)).
Proof.
  destruct ex as [w|i|f|w| |]; cbn [map_ty num_exponent]; try rt.
  - apply nat_if.
    + eapply (nat_tryb _ id); [apply nat_ret, parse_isize_h|]. intros m. bnd @nat_lift. bnd @nat_lift. rt.
    + eapply (nat_tryb _ h); [apply nat_ret, parse_float_str_h|]. intros m. apply nat_ret. cbn. unfold map_tok. cbn.
      now rewrite h_mul, h_pow, h_int.
  - eapply (nat_tryb _ h); [apply nat_ret, parse_float_str_h|]. intros m. apply nat_ret. cbn. unfold map_tok. cbn.
    now rewrite h_mul, h_pow.
Qed.
Lemma finish_tn p s b : tn (mres (map_tok h)) (num_finish fo p s b) (num_finish go p s b).
Proof.
  unfold num_finish. destruct s as [|c s]; [bnd pos_tn; rt|]. apply nat_if.
  - eapply (nat_tryb _ h); [apply nat_ret, parse_float_str_h|]. intros m. rt.
  - eapply (nat_tryb _ id); [apply nat_ret, parse_isize_h|]. intros m. rt.
Qed.
Lemma num_loop_tn cc chk fuel : forall p s b, tn (mres (map_tok h)) (num_loop fo cc chk fuel p s b) (num_loop go cc chk fuel p s b).
Proof.
  induction fuel as [|n IH]; intros p s b; cbn [num_loop]; [apply nat_fuel|].
  bnd peek_tn. destruct a as [ch|[l|]]; cbn [mres map_error]; [|rt|apply finish_tn]. unfold id.
  apply nat_if; [tr next_tn; apply IH|]. apply nat_if.
  { apply nat_if; [bnd pos_tn; rt|tr next_tn; apply IH]. }
  apply nat_if; [|apply finish_tn]. destruct s as [|c s]; [bnd pos_tn; rt|].
  bnd next_tn. eapply nat_tryb; [apply prelude_tn, IH|]. intros t. apply exponent_tn.
Qed.
Lemma str_loop_tn fuel : forall p s, tn (mres (map_tok h)) (str_loop (F := F) fuel p s) (str_loop (F := G) fuel p s).
Proof.
  induction fuel as [|n IH]; intros p s; cbn [str_loop]; [apply nat_fuel|].
  bnd next_tn. destruct a as [ch|[l|]]; cbn [mres map_error]; [|rt|bnd pos_tn; rt]. unfold id.
  apply nat_if.
  - bnd next_tn. destruct a as [ch2|[l|]]; cbn [mres map_error]; [|rt|bnd prev_tn; rt]. unfold id. apply nat_if; apply IH.
  - apply nat_if; [rt|apply IH].
Qed.
Lemma tokenize_str_tn fuel : tn (mres (map_tok h)) (tokenize_str (F := F) fuel) (tokenize_str (F := G) fuel).
Proof.
  unfold tokenize_str. bnd pos_tn. bnd next_tn. destruct a0 as [ch|[l|]]; cbn [mres map_error]; [|rt|bnd pos_tn; rt]. apply str_loop_tn.
Qed.
Lemma id_loop_tn cc fuel : forall s, tn (mres id) (id_loop (F := F) cc fuel s) (id_loop (F := G) cc fuel s).
Proof.
  induction fuel as [|n IH]; intros s; cbn [id_loop]; [apply nat_fuel|].
  bnd peek_tn. destruct a as [ch|[l|]]; cbn [mres map_error]; [|rt|rt]. unfold id at 1.
  apply nat_if; [|rt]. tr next_tn. apply IH.
Qed.
Lemma tokenize_id_tn cc fuel : tn (mres (map_tok h)) (tokenize_id (F := F) cc fuel) (tokenize_id (F := G) cc fuel).
Proof.
  unfold tokenize_id. bnd pos_tn. tr next_tn. tr id_loop_tn. destruct a1 as [|c s]; [bnd pos_tn; rt|rt].
Qed.
Lemma skip_comment_tn fuel : tn id (skip_comment (F := F) fuel) (skip_comment (F := G) fuel).
Proof.
  induction fuel as [|n IH]; cbn [skip_comment]; [apply nat_fuel|].
  bnd next_tn. destruct a as [ch|e]; cbn [mres]; [|rt]. apply nat_if; [rt|apply IH].
Qed.
Lemma skip_ws_tn fuel : tn (mres id) (skip_ws (F := F) fuel) (skip_ws (F := G) fuel).
Proof.
  induction fuel as [|n IH]; cbn [skip_ws]; [apply nat_fuel|].
  bnd peek_tn. destruct a as [ch|e]; cbn [mres]; [|rt]. unfold id at 1. apply nat_if; [|rt]. tr next_tn. apply IH.
Qed.
Lemma tokenize_one_tn cc chk fuel : tn (mres (map_tok h)) (tokenize_one fo cc chk fuel) (tokenize_one go cc chk fuel).
Proof.
  induction fuel as [|n IH]; cbn [tokenize_one]; [apply nat_fuel|].
  bnd peek_tn. destruct a as [ch|e]; cbn [mres]; [|rt]. unfold id at 1.
  apply nat_if; [bnd skip_comment_tn; apply IH|].
  apply nat_if; [apply tokenize_str_tn|].
  apply nat_if; [bnd pos_tn; bnd next_tn; rt|].
  apply nat_if; [bnd pos_tn; bnd next_tn; rt|].
  apply nat_if; [apply prelude_tn, num_loop_tn|].
  apply nat_if; [tr skip_ws_tn; apply IH|].
  apply nat_if; [apply tokenize_id_tn|]. bnd pos_tn. rt.
Qed.
Lemma tokenize_loop_tn cc chk fuel : forall ts, tn (mres (map (map_tok h))) (tokenize_loop fo cc chk fuel ts)
  (tokenize_loop go cc chk fuel (map (map_tok h) ts)).
Proof.
  induction fuel as [|n IH]; intros ts; cbn [tokenize_loop]; [apply nat_fuel|].
  eapply (nat_bind _ id); [intros st; reflexivity|]. intros st. unfold id at 1. apply nat_if; [|rt].
  bnd tokenize_one_tn. destruct a as [t|[l|]]; cbn [mres map_error]; [|rt|rt].
  specialize (IH (ts ++ [t])). rewrite map_app in IH. exact IH.
Qed.
Lemma tokenize_h cc chk s : tokenize go cc chk s = map_outcome h (map (map_tok h)) (tokenize fo cc chk s).
Proof.
  unfold tokenize. cbv zeta. pose proof (tokenize_loop_tn cc chk (tk_fuel (tk_new s)) [] (tk_new s)) as E.
  unfold id in E. cbn [map] in E. rewrite E. destruct (tokenize_loop fo cc chk _ _ _) as [[[a|e] st]| |]; reflexivity.
Qed.

(** ** Parser *)
Definition mst (p : @parser F) : @parser G := mkPr (map (map_tok h) (pr_tokens p)) (pr_index p).
Notation pn := (nat_ mst).
Lemma empty_h p : pr_is_empty (mst p) = pr_is_empty p.
Proof. unfold pr_is_empty, mst; cbn. now rewrite map_length. Qed.
Lemma ppeek : pn (mres (map_tok h)) pr_peek pr_peek.
Proof.
  intros st. unfold pr_peek. rewrite empty_h. destruct (negb _); [|reflexivity]. cbn [mst pr_tokens pr_index].
  rewrite nth_error_map. destruct (nth_error _ _); reflexivity.
Qed.
Lemma pnext : pn (mres (map_tok h)) pr_next pr_next.
Proof.
  intros st. unfold pr_next. rewrite empty_h. destruct (pr_is_empty st); [reflexivity|]. cbn [mst pr_tokens pr_index].
  rewrite nth_error_map. destruct (nth_error _ _); reflexivity.
Qed.
Lemma ppos : pn (mres id) pr_pos pr_pos.
Proof.
  intros st. unfold pr_pos. cbn [mst pr_tokens pr_index]. rewrite map_length.
  destruct (_ <=? _); [reflexivity|]. rewrite nth_error_map. destruct (nth_error _ _); reflexivity.
Qed.
Lemma pvidx {A B} (g : A -> B) l i : pn g (vidx l i) (vidx (map g l) i).
Proof. unfold vidx. rewrite nth_error_map. destruct (nth_error l i); [rt|apply nat_panic]. Qed.
Lemma pget : pn mst get get.
Proof. intros st. reflexivity. Qed.
Lemma fuel_h st : pr_fuel (mst st) = pr_fuel st.
Proof. unfold pr_fuel, mst; cbn. now rewrite map_length. Qed.

Ltac tok t := destruct t as [?p [?w|?i|?x|?w| |]]; unfold map_tok; cbn [tok_ty tok_pos map_ty].
Ltac pk := eapply nat_bind; [apply ppeek|]; intros [t|[l|]]; cbn [mres map_error]; [tok t|rt|rt]; try rt.
Lemma pint : pn (mres id) (parse_int (F := F)) (parse_int (F := G)).
Proof. unfold parse_int. pk. bnd pnext. rt. Qed.
Lemma pstring : pn (mres id) (parse_string (F := F)) (parse_string (F := G)).
Proof. unfold parse_string. pk. bnd pnext. rt. Qed.
Lemma pident : pn (mres id) (parse_identifier (F := F)) (parse_identifier (F := G)).
Proof. unfold parse_identifier. pk. bnd pnext. rt. Qed.
Lemma pbool : pn (mres id) (parse_bool (F := F)) (parse_bool (F := G)).
Proof. unfold parse_bool. pk. apply nat_if; [tr pnext; rt|]. apply nat_if; [tr pnext; rt|rt]. Qed.
Lemma pfloat : pn (mres h) (parse_float fo) (parse_float go).
Proof. unfold parse_float. pk; tr pnext; [|rt]. apply nat_ret. cbn. now rewrite h_int. Qed.

Section Lists.
Context {A B : Type} (g : A -> B) (p : M (@parser F) (result A (error F))) (q : M (@parser G) (result B (error G))) (H : pn (mres g) p q).
Context (name : string).
Lemma pmany_loop fuel : forall vs, pn (mres (map g)) (parse_many_loop p name fuel vs) (parse_many_loop q name fuel (map g vs)).
Proof.
  induction fuel as [|n IH]; intros vs; cbn [parse_many_loop]; [apply nat_fuel|].
  bnd H. destruct a as [v|e]; cbn [mres].
  - specialize (IH (vs ++ [v])). rewrite map_app in IH. exact IH.
  - destruct vs; rt.
Qed.
Lemma pmany : pn (mres (map g)) (parse_many p name) (parse_many q name).
Proof. unfold parse_many. bnd pget. rewrite fuel_h. apply (pmany_loop _ []). Qed.
Lemma pn_loop n st k : forall vs, pn (mres (map g)) (parse_n_loop p n name st k vs) (parse_n_loop q n name st k (map g vs)).
Proof.
  induction k as [|k IH]; intros vs; cbn [parse_n_loop]; [rt|].
  bnd H. destruct a as [v|e]; cbn [mres].
  - specialize (IH (vs ++ [v])). rewrite map_app in IH. exact IH.
  - eapply (nat_bind _ id); [intros s; reflexivity|]. intros _. rt.
Qed.
Lemma pn_ n : pn (mres (map g)) (parse_n p n name) (parse_n q n name).
Proof. unfold parse_n. apply nat_if; [|apply nat_panic]. bnd pget. apply (pn_loop n _ n []). Qed.
Lemma plist : pn (mres (map g)) (parse_list p name) (parse_list q name).
Proof.
  unfold parse_list. pk. bnd pnext. tr pmany. pk. destruct a0; cbn [map]; [rt|]. tr pnext. rt.
Qed.
Lemma plist_n n : pn (mres (map g)) (parse_list_of_n p n name) (parse_list_of_n q n name).
Proof.
  unfold parse_list_of_n. pk. bnd pnext. tr pn_. pk. destruct a0; cbn [map]; [rt|]. tr pnext. rt.
Qed.
Lemma pone : pn (mres (map g)) (parse_one_or_list p name) (parse_one_or_list q name).
Proof.
  unfold parse_one_or_list. pk; try (tr H; rt). apply plist.
Qed.
End Lists.
Lemma pp2 : pn (mres (map_p2 h)) (parse_point2f fo) (parse_point2f go).
Proof. unfold parse_point2f. eapply nat_tryb; [apply (pn_ h), pfloat|]. intros l. bnd (pvidx h). bnd (pvidx h). rt. Qed.
Lemma pv2 : pn (mres (map_v2 h)) (parse_vector2f fo) (parse_vector2f go).
Proof. unfold parse_vector2f. eapply nat_tryb; [apply (pn_ h), pfloat|]. intros l. bnd (pvidx h). bnd (pvidx h). rt. Qed.
Lemma chunks2_h l : chunks2 (map h l) =
  match chunks2 l with Done r => Done (map (fun x => (h (fst x), h (snd x))) r) | Panic => Panic | OutOfFuel => OutOfFuel end.
Proof.
  assert (G2 : forall n l, length l <= n -> chunks2 (map h l) =
    match chunks2 l with Done r => Done (map (fun x => (h (fst x), h (snd x))) r) | Panic => Panic | OutOfFuel => OutOfFuel end).
  { intros n. induction n as [|n IH]; intros [|a [|b l']] Hl; cbn in Hl; try lia; try reflexivity.
    cbn [map chunks2]. rewrite IH by lia. unfold obind. destruct (chunks2 l'); reflexivity. }
  apply (G2 (length l)). lia.
Qed.
Lemma pspectrum : pn (mres (map_spectrum h)) (parse_spectrum fo) (parse_spectrum go).
Proof.
  unfold parse_spectrum. pk; [tr pnext; rt|].
  eapply nat_tryb; [apply (plist h), pfloat|]. intros l. rewrite map_length. apply nat_if; [rt|].
  eapply (nat_bind _ (map (fun x => (h (fst x), h (snd x))))); [|intros x; rt].
  intros st. unfold lift. rewrite chunks2_h. destruct (chunks2 l); reflexivity.
Qed.
Lemma map_app1 {A B} (g : A -> B) l x : map g (l ++ [x]) = map g l ++ [g x].
Proof. now rewrite map_app. Qed.
Lemma map_id_ {A} (l : list A) : map id l = l. Proof. apply map_id. Qed.
Lemma pparam ps : pn (mres (map_ps h)) (parse_param_list fo ps) (parse_param_list go (map_ps h ps)).
Proof.
  unfold parse_param_list. pk. destruct (split_whitespace w) as [|ty [|var [|z l]]]; try rt.
  destruct ps as [bs is fs p2 v2 p3 v3 n3 sp ss ts].
  apply nat_if. { tr pnext. eapply nat_tryb; [apply (pone id), pint|]. intros l. apply nat_ret. rewrite map_id_. reflexivity. }
  apply nat_if. { tr pnext. eapply nat_tryb; [apply (pone h), pfloat|]. intros l. apply nat_ret. cbn. unfold ps_push_float; cbn. now rewrite map_app1. }
  apply nat_if. { tr pnext. eapply nat_tryb; [apply (plist (map_p2 h)), pp2|]. intros l. apply nat_ret. cbn. unfold ps_push_point2; cbn. now rewrite map_app1. }
  apply nat_if. { tr pnext. eapply nat_tryb; [apply (plist (map_v2 h)), pv2|]. intros l. apply nat_ret. cbn. unfold ps_push_vector2; cbn. now rewrite map_app1. }
  apply nat_if. { tr pnext. eapply nat_tryb; [apply (pone id), pbool|]. intros l. apply nat_ret. rewrite map_id_. reflexivity. }
  apply nat_if. { tr pnext. eapply nat_tryb; [apply (pone id), pstring|]. intros l. apply nat_ret. rewrite map_id_. reflexivity. }
  apply nat_if. { tr pnext. eapply nat_tryb; [apply (plist_n h), pfloat|]. intros l. bnd (pvidx h). bnd (pvidx h). bnd (pvidx h).
    apply nat_ret. cbn. unfold ps_push_spectrum; cbn. now rewrite map_app1. }
  apply nat_if. { tr pnext. eapply nat_tryb; [apply (plist_n h), pfloat|]. intros l. bnd (pvidx h). bnd (pvidx h). bnd (pvidx h).
    apply nat_ret. cbn. unfold ps_push_spectrum; cbn. now rewrite map_app1. }
  apply nat_if. { tr pnext. tr pspectrum. apply nat_ret. cbn. unfold ps_push_spectrum; cbn. now rewrite map_app1. }
  apply nat_if. { tr pnext. eapply nat_tryb; [apply (plist_n h), pfloat|]. intros l. bnd (pvidx h). bnd (pvidx h).
    apply nat_ret. cbn. unfold ps_push_spectrum; cbn. now rewrite map_app1. }
  apply nat_if; [|rt]. tr pnext. tr pstring. rt.
Qed.
Lemma pparams_loop fuel : forall ps, pn (map_ps h) (parse_param_lists_loop fo fuel ps) (parse_param_lists_loop go fuel (map_ps h ps)).
Proof.
  induction fuel as [|n IH]; intros ps; cbn [parse_param_lists_loop]; [apply nat_fuel|].
  bnd pparam. destruct a as [ps'|e]; cbn [mres]; [apply IH|rt].
Qed.
Lemma pparams ps : pn (mres (map_ps h)) (parse_param_lists fo ps) (parse_param_lists go (map_ps h ps)).
Proof. unfold parse_param_lists. bnd pget. rewrite fuel_h. bnd pparams_loop. rt. Qed.
Lemma pstruct p : pn (mres (map_ds h)) (parse_struct fo p) (parse_struct go p).
Proof. unfold parse_struct. tr pstring. eapply nat_tryb; [apply (pparams ps_empty)|]. intros ps. rt. Qed.
Lemma pdir_body b b' : pn (mres (map (map_dir h))) b b' ->
  pn (mres (map_dir h)) (parse_directive_body fo b) (parse_directive_body go b').
Proof.
  intros Hb. unfold parse_directive_body. tr ppos. tr pident. unfold id.
  do 4 (apply nat_if; [tr pstruct; rt|]). do 3 (apply nat_if; [tr Hb; rt|]).
  apply nat_if; [tr pstring; rt|]. apply nat_if; [|rt].
  tr pstring. tr pstring. tr pstring. eapply nat_tryb; [apply (pparams ps_empty)|]. intros ps. rt.
Qed.
Lemma pdirs_loop fuel : forall l, pn (mres (map (map_dir h))) (parse_directives_loop fo fuel l) (parse_directives_loop go fuel (map (map_dir h) l)).
Proof.
  induction fuel as [|n IH]; intros l; cbn [parse_directives_loop]; [apply nat_fuel|].
  tr ppeek. tok a; try rt. apply nat_if; [rt|].
  eapply nat_tryb; [apply pdir_body; apply (IH [])|]. intros d. specialize (IH (l ++ [d])). rewrite map_app in IH. exact IH.
Qed.
Lemma pdir : pn (mres (map_dir h)) (parse_directive fo) (parse_directive go).
Proof. unfold parse_directive. apply pdir_body. unfold parse_directives. bnd pget. rewrite fuel_h. apply (pdirs_loop _ []). Qed.
Lemma pvec3 l i : pn (map_v3 h) (vec3_at l i) (vec3_at (map h l) i).
Proof. unfold vec3_at. do 3 bnd (pvidx h). rt. Qed.
Lemma pmat3 l : pn (map_m3 h) (mat3_of l) (mat3_of (map h l)).
Proof. unfold mat3_of. do 9 bnd (pvidx h). rt. Qed.
Lemma pexactly p w n : pn (mres (map h)) (floats_exactly fo p w n) (floats_exactly go p w n).
Proof.
  unfold floats_exactly, parse_floats. eapply nat_tryb; [apply (pmany h), pfloat|]. intros l. rewrite map_length. apply nat_if; rt.
Qed.
Lemma ppre : pn (mres (map_pre h)) (parse_predirective fo) (parse_predirective go).
Proof.
  unfold parse_predirective. tr ppos. tr pident. unfold id.
  apply nat_if; [rt|].
  apply nat_if; [tr pexactly; bnd pvec3; rt|]. apply nat_if; [tr pexactly; bnd pvec3; rt|].
  apply nat_if; [tr pexactly; bnd (pvidx h); bnd pvec3; rt|].
  apply nat_if; [tr pexactly; bnd pmat3; rt|].
  apply nat_if; [tr pstring; rt|]. apply nat_if; [tr pstring; rt|].
  apply nat_if; [tr pexactly; bnd pmat3; rt|]. apply nat_if; [tr pexactly; bnd pmat3; rt|].
  apply nat_if; [tr pident; rt|].
  apply nat_if; [tr pexactly; bnd (pvidx h); bnd (pvidx h); rt|].
  do 6 (apply nat_if; [tr pstruct; rt|]). apply nat_if; [tr pstring; rt|rt].
Qed.
Lemma ppres_loop fuel : forall l, pn (mres (map (map_pre h))) (parse_predirectives_loop fo fuel l) (parse_predirectives_loop go fuel (map (map_pre h) l)).
Proof.
  induction fuel as [|n IH]; intros l; cbn [parse_predirectives_loop]; [apply nat_fuel|].
  tr ppeek. tok a; try rt. apply nat_if; [rt|].
  tr ppre. specialize (IH (l ++ [a])). rewrite map_app in IH. exact IH.
Qed.
Lemma ptokens : pn (mres (map_scene h)) (parse_tokens_m fo) (parse_tokens_m go).
Proof.
  unfold parse_tokens_m, parse_predirectives. eapply nat_tryb.
  - bnd pget. rewrite fuel_h. apply (ppres_loop _ []).
  - intros l. tr pdir. rt.
Qed.
Lemma parse_tokens_h ts : parse_tokens go (map (map_tok h) ts) = map_outcome h (map_scene h) (parse_tokens fo ts).
Proof.
  unfold parse_tokens. pose proof (ptokens (mkPr ts 0)) as E. unfold mst in E at 1; cbn [pr_tokens pr_index] in E. rewrite E.
  destruct (parse_tokens_m fo _) as [[[a|e] st]| |]; reflexivity.
Qed.
Lemma parse_h cc chk s : parse go cc chk s = map_outcome h (map_scene h) (parse fo cc chk s).
Proof.
  unfold parse. rewrite tokenize_h. destruct (tokenize fo cc chk s) as [[ts|e]| |]; cbn; try reflexivity.
  - apply parse_tokens_h.
  - f_equal. f_equal. destruct e; reflexivity.
Qed.
End Hom.

Lemma parse_eval {F} (fo : FloatOps F) cc chk s :
  parse fo cc chk s = map_outcome (eval fo) (map_scene (eval fo)) (parse fo_sym cc chk s).
Proof. apply parse_h; reflexivity. Qed.
Lemma tokenize_eval {F} (fo : FloatOps F) cc chk s :
  tokenize fo cc chk s = map_outcome (eval fo) (map (map_tok (eval fo))) (tokenize fo_sym cc chk s).
Proof. apply tokenize_h; reflexivity. Qed.
Definition fo_unit : FloatOps unit := mkFO unit (fun _ _ _ => tt) (fun _ _ => tt) (fun _ => tt) (fun _ => tt).
Lemma shape_unit {F} (fo : FloatOps F) cc chk s : shape (parse fo cc chk s) = parse fo_unit cc chk s.
Proof. unfold shape. symmetry. apply parse_h; reflexivity. Qed.
Lemma same_shape {F G} (fo : FloatOps F) (go : FloatOps G) cc chk s : shape (parse fo cc chk s) = shape (parse go cc chk s).
Proof. now rewrite !shape_unit. Qed.

(** ** Only the characters of the text matter *)
Section Local.
Context {F : Type} (fo : FloatOps F) (cc cc' : CharClass) (chk : bool) (chars : str) (A0 : agree_on cc cc' chars).

Definition sm {A} (P : A -> Prop) (p q : M tokenizer A) : Prop := forall t, tk_chars t = chars ->
  q t = p t /\ forall a t', p t = Done (a, t') -> P a /\ tk_chars t' = chars.
Definition any {A} (_ : A) : Prop := True.
Lemma sm_ret {A} (P : A -> Prop) a : P a -> sm P (ret a) (ret a).
Proof. intros Pa t Ht. split; [reflexivity|]. intros a' t' E. injection E as <- <-. auto. Qed.
Lemma sm_any {A} (P : A -> Prop) p q : sm P p q -> sm any p q.
Proof. intros H t Ht. destruct (H t Ht) as [E K]. split; [exact E|]. intros a t' R. split; [exact I|]. eapply K; eauto. Qed.
Lemma sm_bind {A B} (P : A -> Prop) (Q : B -> Prop) p q k k' :
  sm P p q -> (forall a, P a -> sm Q (k a) (k' a)) -> sm Q (bind p k) (bind q k').
Proof.
  intros H K t Ht. destruct (H t Ht) as [E R]. unfold bind. rewrite E.
  destruct (p t) as [[a t']| |] eqn:Ep; [|split; [reflexivity|discriminate]|split; [reflexivity|discriminate]].
  destruct (R _ _ eq_refl) as [Pa Ht']. exact (K a Pa t' Ht').
Qed.
Lemma sm_tryb {A B} (P : result A (error F) -> Prop) p q (k k' : A -> M tokenizer (result B (error F))) :
  sm P p q -> (forall a, P (Ok a) -> sm any (k a) (k' a)) -> sm any (tryb p k) (tryb q k').
Proof.
  intros H K. unfold tryb. eapply sm_bind; [exact H|]. intros [a|e] Pa; [now apply K|now apply sm_ret].
Qed.
Lemma sm_if {A} (P : A -> Prop) (b b' : bool) p p' q q' : b' = b ->
  sm P p q -> sm P p' q' -> sm P (if b then p else p') (if b' then q else q').
Proof. intros ->. now destruct b. Qed.
Lemma sm_fuel {A} (P : A -> Prop) : sm P out_of_fuel out_of_fuel.
Proof. intros t Ht. split; [reflexivity|discriminate]. Qed.
Lemma sm_lift {A} (x : out A) : sm any (lift x) (lift x).
Proof. intros t Ht. split; [reflexivity|]. unfold lift. destruct x as [a| |]; [|discriminate|discriminate]. intros a' t' E. injection E as <- <-. split; [exact I|exact Ht]. Qed.
Lemma sm_get : sm any get get.
Proof. intros t Ht. split; [reflexivity|]. intros a t' E. injection E as <- <-. split; [exact I|exact Ht]. Qed.
Lemma sm_pos : sm any cur_pos cur_pos.
Proof. intros t Ht. split; [reflexivity|]. intros a t' E. injection E as <- <-. split; [exact I|exact Ht]. Qed.
Lemma sm_prev : sm any cur_prev cur_prev.
Proof. intros t Ht. split; [reflexivity|]. intros a t' E. injection E as <- <-. split; [exact I|exact Ht]. Qed.
Definition seen (r : result N (error F)) : Prop := match r with Ok c => In c chars | Err _ => True end.
Lemma sm_peek : sm seen tk_peek tk_peek.
Proof.
  intros t Ht. split; [reflexivity|]. intros a t'. unfold tk_peek. destruct (negb _); [|intros E; injection E as <- <-; now split].
  destruct (nth_error _ _) eqn:E; [|discriminate]. apply nth_error_In in E. intros R. injection R as <- <-. rewrite Ht in E. now split.
Qed.
Lemma sm_next : sm seen tk_next tk_next.
Proof.
  intros t Ht. split; [reflexivity|]. intros a t'. unfold tk_next. destruct (tk_is_empty t); [intros E; injection E as <- <-; now split|].
  destruct (nth_error _ _) eqn:E; [|discriminate]. apply nth_error_In in E. intros R. injection R as <- <-. rewrite Ht in E. now split.
Qed.
Lemma num_eq c : In c chars -> is_numeric cc' c = is_numeric cc c.
Proof. intros H. unfold agree_on in A0. rewrite Forall_forall in A0. now destruct (A0 c H). Qed.
Lemma alpha_eq c : In c chars -> is_alphabetic cc' c = is_alphabetic cc c.
Proof. intros H. unfold agree_on in A0. rewrite Forall_forall in A0. now destruct (A0 c H). Qed.

Ltac rs := apply sm_ret; exact I.
Ltac sb L := eapply sm_bind; [apply L|]; intros ? ?.
Ltac st L := eapply sm_tryb; [apply L|]; intros ? ?.
Ltac sif := apply sm_if; [reflexivity| |].
Lemma sm_prelude loop loop' : (forall p s b, sm any (loop p s b) (loop' p s b)) ->
  sm any (num_prelude (F := F) loop) (num_prelude loop').
Proof.
  intros H. unfold num_prelude. sb sm_pos. sb sm_peek. eapply (sm_bind any); [|intros l _; apply H].
  destruct a0 as [c|e]; [|rs]. sif; [sb sm_next; rs|]. sif; [sb sm_next; rs|rs].
Qed.
Lemma sm_finish p s b : sm any (num_finish fo p s b) (num_finish fo p s b).
Proof.
  unfold num_finish. destruct s; [sb sm_pos; rs|]. sif; (eapply (sm_tryb any); [apply sm_ret; exact I|intros ? _; rs]).
Qed.
Lemma sm_exponent p s b ex : sm any (num_exponent fo chk p s b ex) (num_exponent fo chk p s b ex).
Proof.
  destruct ex; cbn [num_exponent]; try rs.
  - sif; (eapply (sm_tryb any); [apply sm_ret; exact I|intros ? _]); [|rs]. sb (@sm_lift Z). sb (@sm_lift Z). rs.
  - eapply (sm_tryb any); [apply sm_ret; exact I|intros ? _]. rs.
Qed.
Lemma sm_num_loop fuel : forall p s b, sm any (num_loop fo cc chk fuel p s b) (num_loop fo cc' chk fuel p s b).
Proof.
  induction fuel as [|n IH]; intros p s b; cbn [num_loop]; [apply sm_fuel|].
  sb sm_peek. destruct a as [ch|[l|]]; [|rs|apply sm_finish].
  apply sm_if; [now apply num_eq| |]; [st sm_next; apply IH|].
  sif. { sif; [sb sm_pos; rs|st sm_next; apply IH]. }
  sif; [|apply sm_finish]. destruct s; [sb sm_pos; rs|]. sb sm_next.
  eapply sm_tryb; [apply sm_prelude, IH|]. intros t _. apply sm_exponent.
Qed.
Lemma sm_str_loop fuel : forall p s, sm any (str_loop (F := F) fuel p s) (str_loop fuel p s).
Proof.
  induction fuel as [|n IH]; intros p s; cbn [str_loop]; [apply sm_fuel|].
  sb sm_next. destruct a as [ch|[l|]]; [|rs|sb sm_pos; rs].
  sif. { sb sm_next. destruct a as [ch2|[l|]]; [|rs|sb sm_prev; rs]. sif; apply IH. }
  sif; [rs|apply IH].
Qed.
Lemma sm_tokenize_str fuel : sm any (tokenize_str (F := F) fuel) (tokenize_str fuel).
Proof. unfold tokenize_str. sb sm_pos. sb sm_next. destruct a0 as [ch|[l|]]; [|rs|sb sm_pos; rs]. apply sm_str_loop. Qed.
Lemma sm_id_loop fuel : forall s, sm any (id_loop (F := F) cc fuel s) (id_loop cc' fuel s).
Proof.
  induction fuel as [|n IH]; intros s; cbn [id_loop]; [apply sm_fuel|].
  sb sm_peek. destruct a as [ch|[l|]]; [|rs|rs].
  apply sm_if; [unfold is_alphanumeric; now rewrite num_eq, alpha_eq| |]; [|rs]. st sm_next. apply IH.
Qed.
Lemma sm_tokenize_id fuel : sm any (tokenize_id (F := F) cc fuel) (tokenize_id cc' fuel).
Proof. unfold tokenize_id. sb sm_pos. st sm_next. st sm_id_loop. destruct a1; [sb sm_pos; rs|rs]. Qed.
Lemma sm_comment fuel : sm any (skip_comment (F := F) fuel) (skip_comment (F := F) fuel).
Proof.
  induction fuel as [|n IH]; cbn [skip_comment]; [apply sm_fuel|]. sb sm_next. destruct a as [ch|e]; [|rs]. sif; [rs|apply IH].
Qed.
Lemma sm_ws fuel : sm any (skip_ws (F := F) fuel) (skip_ws fuel).
Proof.
  induction fuel as [|n IH]; cbn [skip_ws]; [apply sm_fuel|]. sb sm_peek. destruct a as [ch|e]; [|rs]. sif; [|rs]. st sm_next. apply IH.
Qed.
Lemma sm_one fuel : sm any (tokenize_one fo cc chk fuel) (tokenize_one fo cc' chk fuel).
Proof.
  induction fuel as [|n IH]; cbn [tokenize_one]; [apply sm_fuel|]. sb sm_peek. destruct a as [ch|e]; [|rs].
  sif; [sb sm_comment; apply IH|]. sif; [apply sm_tokenize_str|].
  sif; [sb sm_pos; sb sm_next; rs|]. sif; [sb sm_pos; sb sm_next; rs|].
  apply sm_if; [unfold starts_num; now rewrite num_eq| |]; [apply sm_prelude, sm_num_loop|].
  sif; [st sm_ws; apply IH|].
  apply sm_if; [now apply alpha_eq| |]; [apply sm_tokenize_id|]. sb sm_pos. rs.
Qed.
Lemma sm_loop fuel : forall ts, sm any (tokenize_loop fo cc chk fuel ts) (tokenize_loop fo cc' chk fuel ts).
Proof.
  induction fuel as [|n IH]; intros ts; cbn [tokenize_loop]; [apply sm_fuel|]. sb sm_get. sif; [|rs].
  sb sm_one. destruct a0 as [t|[l|]]; [apply IH|rs|rs].
Qed.
End Local.

Lemma crlf_sub s : forall c, In c (replace_crlf s) -> In c s.
Proof.
  assert (G : forall n s, length s <= n -> forall c, In c (replace_crlf s) -> In c s).
  { induction n as [|n IH]; intros [|a s'] Hl c Hc; cbn in Hl; try lia; try contradiction.
    cbn [replace_crlf] in Hc. destruct (a =? c_cr)%N.
    - destruct s' as [|d s'']; [exact Hc|]. destruct (N.eqb_spec d c_lf) as [->|].
      + destruct Hc as [<-|Hc]; [right; now left|]. right; right. apply IH in Hc; [assumption|cbn in Hl; lia].
      + destruct Hc as [<-|Hc]; [now left|]. right. apply IH in Hc; [assumption|lia].
    - destruct Hc as [<-|Hc]; [now left|]. right. apply IH in Hc; [assumption|lia]. }
  intros c. apply (G (length s)). lia.
Qed.
Lemma tokenize_local {F} (fo : FloatOps F) cc cc' chk s : agree_on cc cc' s -> tokenize fo cc chk s = tokenize fo cc' chk s.
Proof.
  intros A. assert (A' : agree_on cc cc' (replace_crlf s)).
  { unfold agree_on in *. rewrite Forall_forall in *. intros c Hc. apply A. now apply crlf_sub. }
  unfold tokenize. cbv zeta. destruct (sm_loop fo cc cc' chk _ A' (tk_fuel (tk_new s)) [] (tk_new s) eq_refl) as [E _]. now rewrite E.
Qed.
Lemma parse_local {F} (fo : FloatOps F) cc cc' chk s : agree_on cc cc' s -> parse fo cc chk s = parse fo cc' chk s.
Proof. intros A. unfold parse. now rewrite (tokenize_local fo cc cc'). Qed.
Lemma parse_ascii {F} (fo : FloatOps F) cc chk s : cc_ok cc -> Forall (fun c => (c < 128)%N) s ->
  parse fo cc chk s = parse fo cc_ascii chk s.
Proof.
  intros K H. apply parse_local. unfold agree_on. eapply Forall_impl; [|exact H]. intros c Hc.
  split; [apply (cc_num_ascii _ K c Hc)|apply (cc_alpha_ascii _ K c Hc)].
Qed.
