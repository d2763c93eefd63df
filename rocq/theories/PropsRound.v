(** Property theorems about printing scenes (C24) and stack depth (C26). Nothing but statements, examples and
    [Print Assumptions]. *)
From Verif Require Import Base TokModel ParModel LexSpec SceneSpec SceneObs PrintSpec PrintProofs DepthModel DepthProofs
  PropsLexLemmas PropsSceneLemmas PropsRoundLemmas.

(** ** C24: scenes survive printing and reparsing *)
Theorem C24_print_parse : forall F (fo : FloatOps F) x, printable x ->
  parse_tokens fo (print_scene x) = Done (Ok (erase_scene x)).
Proof. intros F fo. exact (print_parse fo). Qed.
Print Assumptions C24_print_parse.
(** Every scene the parser returns is such a scene. *)
Theorem C24_results_printable : forall F (fo : FloatOps F) s x, parse_tokens fo s = Done (Ok x) -> printable x.
Proof. intros F fo. exact (parsed_printable fo). Qed.
Print Assumptions C24_results_printable.
Theorem C24_reprint : forall F (fo : FloatOps F) s x, parse_tokens fo s = Done (Ok x) ->
  parse_tokens fo (print_scene x) = Done (Ok (erase_scene x)).
Proof. intros F fo. exact (reprint fo). Qed.
Print Assumptions C24_reprint.
(** Without the condition on blocks the round trip fails. *)
Theorem C24_any_blocks_refuted : exists x, is_world (snd x) /\ (forall ps, all_params x ps -> wf_params ps) /\
  parse_tokens fo_sym (print_scene x) <> Done (Ok (erase_scene x)).
Proof. exact any_blocks_refuted. Qed.
Print Assumptions C24_any_blocks_refuted.
Example C24_example : exists x, parse_tokens fo_sym (toks_of (s2l "LookAt 1 2 3 4 5 6 7 8 9 WorldBegin Texture ""a"" ""b"" ""c"" ""spectrum s"" [1 2]
  AttributeBegin Shape ""disk"" ""point2 p"" [1 2 3 4] ""bool b"" [""true""] AttributeEnd WorldEnd")) = Done (Ok x) /\ length (nodes (snd x)) = 4.
Proof. eexists. split; vm_compute; reflexivity. Qed.

(** ** C26: stack use *)
(** [parse_d _ _ _ depth] is the parser with at most [depth] nested recursive calls. It does what the parser does or overflows,
    and overflows only if [depth] is below the length of the text plus four. *)
Theorem C26_depth_linear_partial : forall F (fo : FloatOps F) cc, cc_ok cc -> forall chk depth input,
  parse_d fo cc chk depth input = parse fo cc chk input \/
  (depth < length input + 4 /\ parse_d fo cc chk depth input = OutOfFuel).
Proof. intros F fo cc Hcc. exact (parse_rel fo cc Hcc). Qed.
Print Assumptions C26_depth_linear_partial.
(** No constant is enough: consecutive comments, nested blocks. *)
Theorem C26_bounded_depth_refuted : forall depth, exists input x,
  parse fo_sym cc_ascii true input = Done (Ok x) /\ parse_d fo_sym cc_ascii true depth input = OutOfFuel.
Proof. exact comments_refuted. Qed.
Print Assumptions C26_bounded_depth_refuted.
Theorem C26_bounded_depth_blocks_refuted : forall F (fo : FloatOps F) depth, exists s x,
  parse_tokens fo s = Done (Ok x) /\ parse_tokens_d fo depth s = OutOfFuel.
Proof. intros F fo. exact (blocks_refuted fo). Qed.
Print Assumptions C26_bounded_depth_blocks_refuted.
Example C26_example : exists x, parse_d fo_sym cc_ascii true 3 (s2l "#
WorldBegin AttributeBegin WorldEnd") = Done (Ok x) /\ parse_d fo_sym cc_ascii true 1 (s2l "#
#
WorldBegin AttributeBegin WorldEnd") = OutOfFuel.
Proof. eexists. split; vm_compute; reflexivity. Qed.
