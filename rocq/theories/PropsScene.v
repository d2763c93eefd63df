(** Property theorems about token lists and scenes: C07, C12-C23, C25. Nothing but statements, examples and
    [Print Assumptions]. *)
From Coq Require Import Sorted.
From Verif Require Import Base TokModel ParModel LexSpec SceneSpec SceneObs LexThms DirProofs TextThms SceneThms KindProofs SceneProps
  PropsLexLemmas PropsSceneLemmas.

(** ** C07: layout does not change the scene *)
Theorem C07_same_kinds : forall F (fo : FloatOps F) s s', kinds s = kinds s' ->
  same_outcome (parse_tokens fo s) (parse_tokens fo s').
Proof. intros F fo s s'. exact (kinds_parse fo s' s). Qed.
Print Assumptions C07_same_kinds.
Theorem C07_same_kinds_text : forall F (fo : FloatOps F) cc chk i1 i2 t1 t2,
  tokenize fo cc chk i1 = Done (Ok t1) -> tokenize fo cc chk i2 = Done (Ok t2) -> kinds t1 = kinds t2 ->
  same_outcome (parse fo cc chk i1) (parse fo cc chk i2).
Proof. intros F fo cc. exact (texts_same_kinds fo cc). Qed.
Print Assumptions C07_same_kinds_text.
(** Layout [w] may be inserted after any white-space character [c] that is not inside a token or a comment. *)
Theorem C07_layout_inserted : forall F (fo : FloatOps F) cc, cc_ok cc -> forall chk a ta c w b,
  ~ In c_cr (a ++ c :: w ++ b) -> is_whitespace c = true -> layout w ->
  tokenize fo cc chk a = Done (Ok ta) -> c = c_lf \/ no_open_comment a ->
  same_outcome (parse fo cc chk (a ++ c :: w ++ b)) (parse fo cc chk (a ++ c :: b)).
Proof. intros F fo cc Hcc. exact (layout_inserted fo cc Hcc). Qed.
Print Assumptions C07_layout_inserted.
(** White space, with layout [w] after it, may be inserted between any two tokens, also where none was: between [a] and [b] if their tokens
    together are those of the whole text. *)
Theorem C07_between_tokens : forall F (fo : FloatOps F) cc, cc_ok cc -> forall chk a ta b tb tab c w,
  ~ In c_cr (a ++ c :: w ++ b) -> is_whitespace c = true -> layout w ->
  tokenize fo cc chk a = Done (Ok ta) -> tokenize fo cc chk b = Done (Ok tb) -> tokenize fo cc chk (a ++ b) = Done (Ok tab) ->
  kinds tab = kinds ta ++ kinds tb -> c = c_lf \/ no_open_comment a ->
  same_outcome (parse fo cc chk (a ++ c :: w ++ b)) (parse fo cc chk (a ++ b)).
Proof. intros F fo cc Hcc. exact (layout_between fo cc Hcc). Qed.
Print Assumptions C07_between_tokens.
Example C07_example_between : kinds (toks_of (s2l "WorldBegin Shape""s""")) ++ kinds (toks_of (s2l """float x""[1]WorldEnd")) =
  kinds (toks_of (s2l "WorldBegin Shape""s""""float x""[1]WorldEnd")).
Proof. vm_compute. reflexivity. Qed.
Example C07_example_kinds : kinds (toks_of (s2l "WorldBegin WorldEnd")) = kinds (toks_of (s2l "  WorldBegin#x
 WorldEnd")) /\ length (toks_of (s2l "WorldBegin WorldEnd")) = 2.
Proof. split; vm_compute; reflexivity. Qed.
Example C07_example_layout : exists ta, tokenize fo_sym cc_ascii true (s2l "WorldBegin") = Done (Ok ta) /\
  layout (s2l "  # comment
 ") /\ no_open_comment (s2l "WorldBegin").
Proof.
  eexists. split; [vm_compute; reflexivity|]. split; [|intros x y E; assert (H : In c_hash (s2l "WorldBegin")) by (rewrite E, in_app_iff; right; now left); vm_compute in H; intuition discriminate].
  apply ly_space; [reflexivity|]. apply ly_space; [reflexivity|]. apply (ly_comment (s2l " comment")).
  - vm_compute. intuition discriminate.
  - apply ly_space; [reflexivity|apply ly_nil].
Qed.

(** ** C12: parsing is exactly the scene grammar *)
Theorem C12_parse_tokens_grammar : forall F (fo : FloatOps F) s x, parse_tokens fo s = Done (Ok x) <-> scene fo s x.
Proof. intros F fo. exact (parse_tokens_iff fo). Qed.
Print Assumptions C12_parse_tokens_grammar.
Theorem C12_parse_grammar : forall F (fo : FloatOps F) cc, cc_ok cc -> forall chk input x,
  parse fo cc chk input = Done (Ok x) <-> exists t toks, lf_text input t /\ lexes fo cc chk [] t toks /\ scene fo toks x.
Proof. intros F fo cc Hcc. exact (parse_ok_iff fo cc Hcc). Qed.
Print Assumptions C12_parse_grammar.
Theorem C12_unambiguous : forall F (fo : FloatOps F) s x y, scene fo s x -> scene fo s y -> x = y.
Proof. intros F fo. exact (scene_unambiguous fo). Qed.
Print Assumptions C12_unambiguous.
Example C12_example : scene fo_sym [id0 (s2l "Identity"); id0 (s2l "WorldBegin"); id0 (s2l "WorldEnd")]
  ([PIdentity pos0], DWorld pos0 []).
Proof.
  eapply sc; [eapply pds_cons; [apply pd_identity|apply pds_world]|].
  apply (di_block fo_sym _ _ DWorld); [constructor|]. apply ds_close. vm_compute. tauto.
Qed.

(** ** C13: a successful parse is pre-directives followed by a world block *)
Theorem C13_world_after_predirectives : forall F (fo : FloatOps F) s x, parse_tokens fo s = Done (Ok x) ->
  exists a p b ds, s = a ++ mkTok p (TIdent (s2l "WorldBegin")) :: b /\ snd x = DWorld p ds /\
    map pre_pos (fst x) = map tok_pos (starters a) /\ Forall (fun t => ~ is_kw (s2l "WorldBegin") t) (starters a).
Proof. intros F fo. exact (world_after_pre fo). Qed.
Print Assumptions C13_world_after_predirectives.
Example C13_example : exists x, length (fst x) = 2 /\
  parse_tokens fo_sym (toks_of (s2l "Identity Scale 1 2 3 WorldBegin Shape ""disk"" WorldEnd")) = Done (Ok x).
Proof. eexists. split; [|vm_compute; reflexivity]. reflexivity. Qed.

(** ** C14: nothing after the first block closer matters *)
Theorem C14_nothing_after_closer : forall F (fo : FloatOps F) s x, parse_tokens fo s = Done (Ok x) ->
  exists a p mid t rest, s = a ++ mkTok p (TIdent (s2l "WorldBegin")) :: mid ++ t :: rest /\
    dir_pos (snd x) = p /\ is_closer_tok t /\ Forall (fun t => ~ is_closer_tok t) mid /\
    map dir_pos (nodes (snd x)) = p :: map tok_pos (filter is_ident mid) /\
    forall t' rest', is_closer_tok t' ->
      parse_tokens fo (a ++ mkTok p (TIdent (s2l "WorldBegin")) :: mid ++ t' :: rest') = Done (Ok x).
Proof. intros F fo. exact (first_closer fo). Qed.
Print Assumptions C14_nothing_after_closer.
Example C14_example : exists x,
  parse_tokens fo_sym (toks_of (s2l "WorldBegin Shape ""disk"" WorldEnd ]] 5 WorldBegin")) = Done (Ok x).
Proof. eexists. vm_compute. reflexivity. Qed.

(** ** C15: no directive of the world block is lost *)
(** False: the Shape below is written between WorldBegin and WorldEnd and is not in the result. *)
Theorem C15_no_directive_lost_refuted : exists a p mid q x t,
  parse_tokens fo_sym (a ++ mkTok p (TIdent (s2l "WorldBegin")) :: mid ++ [mkTok q (TIdent (s2l "WorldEnd"))]) = Done (Ok x) /\
  Forall (fun t => ~ is_kw (s2l "WorldBegin") t /\ ~ is_kw (s2l "WorldEnd") t) mid /\
  In t mid /\ is_kw (s2l "Shape") t /\ ~ In (tok_pos t) (map dir_pos (nodes (snd x))).
Proof. exact directives_lost_refuted. Qed.
Print Assumptions C15_no_directive_lost_refuted.
(** The full statement would have the identifiers up to WorldEnd. True: those up to the first closer of any kind. *)
Theorem C15_no_directive_lost_partial : forall F (fo : FloatOps F) s x, parse_tokens fo s = Done (Ok x) ->
  exists a p mid t rest, s = a ++ mkTok p (TIdent (s2l "WorldBegin")) :: mid ++ t :: rest /\
    dir_pos (snd x) = p /\ is_closer_tok t /\ Forall (fun t => ~ is_closer_tok t) mid /\
    map dir_pos (nodes (snd x)) = p :: map tok_pos (filter is_ident mid) /\
    forall t' rest', is_closer_tok t' ->
      parse_tokens fo (a ++ mkTok p (TIdent (s2l "WorldBegin")) :: mid ++ t' :: rest') = Done (Ok x).
Proof. intros F fo. exact (first_closer fo). Qed.
Print Assumptions C15_no_directive_lost_partial.
Example C15_example : exists x,
  parse_tokens fo_sym (toks_of (s2l "WorldBegin Shape ""disk"" AttributeBegin Shape ""disk"" AttributeEnd WorldEnd")) = Done (Ok x)
  /\ length (nodes (snd x)) = 4.
Proof. eexists. split; vm_compute; reflexivity. Qed.

(** ** C16: block closers match their openers *)
Theorem C16_closers_match_refuted : exists s x p ch,
  parse_tokens fo_sym s = Done (Ok x) /\ In (DAttribute p ch) (nodes (snd x)) /\ Forall (fun t => ~ is_kw (s2l "AttributeEnd") t) s /\
  Forall (fun t => ~ is_kw (s2l "WorldEnd") t) s.
Proof. exact closers_match_refuted. Qed.
Print Assumptions C16_closers_match_refuted.
(** What holds: some closer is there; which one, and how many of them, does not matter ([C14_nothing_after_closer]). *)
Theorem C16_some_closer_partial : forall F (fo : FloatOps F) s x, parse_tokens fo s = Done (Ok x) ->
  exists front t rest, s = front ++ t :: rest /\ is_closer_tok t /\
    forall rest', parse_tokens fo (front ++ t :: rest') = Done (Ok x).
Proof. intros F fo. exact (nothing_after fo). Qed.
Print Assumptions C16_some_closer_partial.

(** ** C17: an unclosed or missing world is rejected *)
Theorem C17_world_needed : forall F (fo : FloatOps F) s, (forall t, In t s -> ~ is_kw (s2l "WorldBegin") t) ->
  exists e, parse_tokens fo s = Done (Err e).
Proof. intros F fo. exact (needs_world fo). Qed.
Print Assumptions C17_world_needed.
Theorem C17_closer_needed : forall F (fo : FloatOps F) s, (forall a p b, s = a ++ mkTok p (TIdent (s2l "WorldBegin")) :: b ->
    forall t, In t b -> ~ is_closer_tok t) -> exists e, parse_tokens fo s = Done (Err e).
Proof. intros F fo. exact (needs_closer fo). Qed.
Print Assumptions C17_closer_needed.
Example C17_example : forall t, In t [id0 (s2l "Identity"); id0 (s2l "Shape"); id0 (s2l "WorldEnd")] -> ~ is_kw (s2l "WorldBegin") t.
Proof. intros t H. cbn in H. intuition (subst; discriminate). Qed.
Example C17_example_unclosed : forall a p b, [id0 (s2l "WorldEnd"); id0 (s2l "WorldBegin")] = a ++ mkTok p (TIdent (s2l "WorldBegin")) :: b ->
    forall t, In t b -> ~ is_closer_tok t.
Proof. intros [|u [|v [|w a]]] p b H t Ht; try discriminate H. injection H as <- <- <-. contradiction. Qed.

(** ** C18: number arguments *)
Theorem C18_number_arguments : forall F (fo : FloatOps F) s ds p id n nums vals rest,
  pre_reaches fo s ds (mkTok p (TIdent id) :: nums ++ rest) -> In (id, n) number_kws ->
  Forall2 (num_value fo) nums vals -> not_number rest ->
  (length nums = n -> exists d, numbers_kw id p vals d /\ pre_reaches fo s (ds ++ [d]) rest) /\
  (length nums <> n -> exists e, parse_tokens fo s = Done (Err e)).
Proof. intros F fo. exact (number_args fo). Qed.
Print Assumptions C18_number_arguments.
(** What has been read that way is at the front of the result. *)
Theorem C18_in_result : forall F (fo : FloatOps F) s ds s1 x, pre_reaches fo s ds s1 -> parse_tokens fo s = Done (Ok x) ->
  exists l, fst x = ds ++ l.
Proof. intros F fo. exact (pre_reaches_result fo). Qed.
Print Assumptions C18_in_result.
Example C18_example : exists nums vals rest,
  pre_reaches fo_sym [id0 (s2l "Scale"); int0 1; int0 2; int0 3; id0 (s2l "WorldBegin")] []
    (mkTok pos0 (TIdent (s2l "Scale")) :: nums ++ rest) /\
  Forall2 (num_value fo_sym) nums vals /\ length nums = 3 /\ In (s2l "Scale", 3) number_kws.
Proof.
  exists [int0 1; int0 2; int0 3]. do 2 eexists. split; [apply pr_start|].
  split; [repeat (apply Forall2_cons; [apply nv_int|]); apply Forall2_nil|]. split; [reflexivity|]. vm_compute. tauto.
Qed.

(** ** C19: parameters are filed under their declared type, in order *)
(** Well-formed parameters [l] after a directive end up as [collect l], and that directive is in the result. *)
Theorem C19_parameters_kept : forall F (fo : FloatOps F) s s0 b l r,
  reaches fo s s0 -> dir_head s0 b -> some_params fo b l r -> quiet r ->
  exists d, directive fo s0 d r /\ dir_params d = Some (collect l) /\ reaches fo s r.
Proof. intros F fo. exact (wellformed_kept fo). Qed.
Print Assumptions C19_parameters_kept.
Theorem C19_parameters_kept_pre : forall F (fo : FloatOps F) s ds s0 b l r,
  pre_reaches fo s ds s0 -> pre_head s0 b -> some_params fo b l r -> quiet r ->
  exists d, predirective fo s0 d r /\ pre_params d = Some (collect l) /\ pre_reaches fo s (ds ++ [d]) r.
Proof. intros F fo. exact (wellformed_kept_pre fo). Qed.
Print Assumptions C19_parameters_kept_pre.
Theorem C19_in_result : forall F (fo : FloatOps F) s s0 d r x,
  reaches fo s s0 -> directive fo s0 d r -> parse_tokens fo s = Done (Ok x) -> In d (nodes (snd x)).
Proof. intros F fo. exact (reached_in_result fo). Qed.
Print Assumptions C19_in_result.
(** Conversely everything in the result was written, with these parameters. *)
Theorem C19_nothing_invented : forall F (fo : FloatOps F) s x, parse_tokens fo s = Done (Ok x) ->
  Forall (fun d => exists a t u, s = a ++ t /\ predirective fo t d u) (fst x) /\ Forall (written fo s) (nodes (snd x)).
Proof. intros F fo. exact (every_result_covered fo). Qed.
Print Assumptions C19_nothing_invented.
Example C19_example : exists s0 b l r, reaches fo_sym (wb_tok pos0 :: s0) s0 /\ dir_head s0 b /\ some_params fo_sym b l r /\
  quiet r /\ length l = 2.
Proof.
  exists [id0 (s2l "Shape"); st0 (s2l "sphere"); st0 (s2l "integer n"); int0 4; st0 (s2l "integer n"); int0 5; id0 (s2l "WorldEnd")].
  do 3 eexists. split; [apply ex_reaches|]. split; [apply ex_head|].
  split; [eapply sp_cons; [apply ex_param|]; eapply sp_cons; [apply ex_param|apply sp_nil]|]. split; [exact I|reflexivity].
Qed.

(** ** C20: every stored parameter has well-formed values *)
Theorem C20_stored_parameters_wf : forall F (fo : FloatOps F) s x ps,
  parse_tokens fo s = Done (Ok x) -> all_params x ps -> wf_params ps.
Proof. intros F fo. exact (all_params_wf fo). Qed.
Print Assumptions C20_stored_parameters_wf.
Example C20_example : parse_tokens fo_sym (toks_of ex20_text) = Done (Ok ex20_result) /\
  all_params ex20_result ex20_params /\ length (ps_floats ex20_params) = 1 /\ length (ps_spectra ex20_params) = 1.
Proof. exact ex20. Qed.

(** ** C21: a malformed parameter is reported *)
Theorem C21_malformed_reported_refuted : exists s s1 x, at_param fo_sym s s1 /\ ~ quiet s1 /\ (forall i r, ~ param fo_sym s1 i r) /\
  parse_tokens fo_sym s = Done (Ok x).
Proof. exact malformed_dropped_refuted. Qed.
Print Assumptions C21_malformed_reported_refuted.
(** The full statement has no last hypothesis. True when the malformed parameter is not of the forms [dropped]. *)
Theorem C21_malformed_reported_partial : forall F (fo : FloatOps F) s s1,
  at_param fo s s1 -> ~ quiet s1 -> (forall i r, ~ param fo s1 i r) -> (forall r, ~ dropped fo s1 r) ->
  exists e, parse_tokens fo s = Done (Err e).
Proof. intros F fo. exact (malformed_reported fo). Qed.
Print Assumptions C21_malformed_reported_partial.
(** The forms [dropped] always are dropped: the directive gets the parameters [l] before it, and reading goes on after it. *)
Theorem C21_dropped_silently : forall F (fo : FloatOps F) s s0 b l s1 r,
  reaches fo s s0 -> dir_head s0 b -> some_params fo b l s1 -> dropped fo s1 r ->
  exists d, directive fo s0 d r /\ dir_params d = Some (collect l) /\ reaches fo s r.
Proof. intros F fo. exact (dropped_goes_on fo). Qed.
Print Assumptions C21_dropped_silently.
Theorem C21_dropped_silently_pre : forall F (fo : FloatOps F) s ds s0 b l s1 r,
  pre_reaches fo s ds s0 -> pre_head s0 b -> some_params fo b l s1 -> dropped fo s1 r ->
  exists d, predirective fo s0 d r /\ pre_params d = Some (collect l) /\ pre_reaches fo s (ds ++ [d]) r.
Proof. intros F fo. exact (dropped_goes_on_pre fo). Qed.
Print Assumptions C21_dropped_silently_pre.
Example C21_example_dropped : dropped fo_sym [st0 (s2l "integer n"); id0 (s2l "WorldEnd")] [id0 (s2l "WorldEnd")].
Proof. apply ex_dropped. exact I. Qed.
Example C21_example_reported : exists s1, at_param fo_sym (wb_tok pos0 :: id0 (s2l "Shape") :: st0 (s2l "sphere") :: s1) s1 /\
  ~ quiet s1 /\ (forall i r, ~ param fo_sym s1 i r) /\ (forall r, ~ dropped fo_sym s1 r).
Proof.
  exists [int0 5]. split; [apply ex_at_param|]. split; [intros []|]. split; [intros i r H|intros r H]; inversion H.
Qed.

(** ** C22: positions *)
(** [ls] and [ls'] hold, per pre-directive and per directive, its position followed by those of its parameters. *)
Theorem C22_positions : forall F (fo : FloatOps F) cc, cc_ok cc -> forall chk input x, parse fo cc chk input = Done (Ok x) ->
  exists toks, tokenize fo cc chk input = Done (Ok toks) /\
  exists ls ls', Forall2 pre_trace (fst x) ls /\ Forall2 dir_trace (nodes (snd x)) ls' /\
    subseq (concat ls ++ concat ls') (map tok_pos toks) /\ StronglySorted pos_lt (concat ls ++ concat ls').
Proof. intros F fo cc Hcc. exact (text_positions fo cc Hcc). Qed.
Print Assumptions C22_positions.
Example C22_example : exists x, parse fo_sym cc_ascii true
  (s2l "Film ""image"" ""integer x"" 5 WorldBegin Shape ""disk"" ""float r"" [1 2] ""rgb L"" [1 2 3] WorldEnd") = Done (Ok x).
Proof. eexists. vm_compute. reflexivity. Qed.

(** ** C23: three-component parameters are unsupported *)
Theorem C23_three_component_empty : forall F (fo : FloatOps F) s x ps,
  parse_tokens fo s = Done (Ok x) -> all_params x ps -> ps_point3fs ps = [] /\ ps_vector3fs ps = [] /\ ps_normal3fs ps = [].
Proof. intros F fo. exact (three_empty fo). Qed.
Print Assumptions C23_three_component_empty.
Theorem C23_unknown_type_rejected : forall F (fo : FloatOps F) s p h r,
  at_param fo s (mkTok p (TStr h) :: r) -> (forall ty name, header h ty name -> ~ known ty) ->
  exists e, parse_tokens fo s = Done (Err e).
Proof. intros F fo. exact (unknown_type fo). Qed.
Print Assumptions C23_unknown_type_rejected.
Example C23_example : at_param fo_sym (wb_tok pos0 :: id0 (s2l "Shape") :: st0 (s2l "sphere") ::
    [st0 (s2l "point3 p"); id0 (s2l "WorldEnd")]) (mkTok pos0 (TStr (s2l "point3 p")) :: [id0 (s2l "WorldEnd")]) /\
  forall ty name, header (s2l "point3 p") ty name -> ~ known ty.
Proof. split; [apply ex_at_param|exact ex_unknown3]. Qed.

(** ** C25: the end-of-input error *)
Theorem C25_eof_iff : forall F (fo : FloatOps F) cc, cc_ok cc -> forall chk input,
  parse fo cc chk input = Done (Err EEof) <-> exists t toks, lf_text input t /\ lexes fo cc chk [] t toks /\ scene_eof fo toks.
Proof. intros F fo cc Hcc. exact (parse_eof_iff fo cc Hcc). Qed.
Print Assumptions C25_eof_iff.
(** Eof means incomplete: a closer, or an empty world, makes the tokens parse. *)
Theorem C25_eof_completable : forall F (fo : FloatOps F) s, parse_tokens fo s = Done (Err EEof) ->
  exists x, parse_tokens fo (s ++ [we_tok pos0]) = Done (Ok x) \/
            parse_tokens fo (s ++ [wb_tok pos0; we_tok pos0]) = Done (Ok x).
Proof. intros F fo. exact (eof_completable fo). Qed.
Print Assumptions C25_eof_completable.
Theorem C25_empty_text : forall F (fo : FloatOps F) cc chk, parse fo cc chk [] = Done (Err EEof).
Proof. intros F fo. exact (empty_eof fo). Qed.
Print Assumptions C25_empty_text.
Example C25_example : parse fo_sym cc_ascii true (s2l "Identity WorldBegin Shape ""disk""") = Done (Err EEof).
Proof. vm_compute. reflexivity. Qed.
