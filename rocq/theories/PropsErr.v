(** Property theorems about error messages: C28, C29, C77. Nothing but statements, examples and [Print Assumptions]. *)
From Verif Require Import Base TokModel ParModel LexSpec LexErrSpec SceneSpec SynErrSpec ErrSpec PropsLexLemmas LexErrProofs SynErrProofs ErrThms.

(** ** C28: which texts are rejected by the tokenizer, and with which message *)
Theorem C28_lexical_errors : forall F (fo : FloatOps F) cc, cc_ok cc -> forall chk input m,
  tokenize fo cc chk input = Done (Err (EStr m)) <-> exists t, lf_text input t /\ lex_error fo cc chk [] t m.
Proof. intros F fo cc Hcc. exact (tokenize_error_iff fo cc Hcc). Qed.
Print Assumptions C28_lexical_errors.
(** The position is that of a place of the text ... *)
Theorem C28_position : forall F (fo : FloatOps F) cc, cc_ok cc -> forall chk input p m,
  tokenize fo cc chk input = Done (Err (EStr (PPos p :: m))) -> exists a b, lf_text input (a ++ b) /\ p = pos_of a.
Proof. intros F fo cc Hcc. exact (lexical_position fo cc Hcc). Qed.
Print Assumptions C28_position.
(** ... and a character is reported with its own position. *)
Theorem C28_char : forall F (fo : FloatOps F) cc, cc_ok cc -> forall chk input p x c m,
  tokenize fo cc chk input = Done (Err (EStr (PPos p :: PText x :: PChar c :: m))) ->
  exists a b, lf_text input (a ++ c :: b) /\ p = pos_of a.
Proof. intros F fo cc Hcc. exact (lexical_char fo cc Hcc). Qed.
Print Assumptions C28_char.
Example C28_example_char : cc_ok cc_ascii /\ tokenize fo_sym cc_ascii true (s2l "Scale 1
 1 ; 1") =
  Done (Err (EStr [PPos (mkPos 2 4); PText " tokenize_one(): unexpected char '"; PChar 59%N; PText "'"])).
Proof. split; [exact cc_ascii_ok|]. vm_compute. reflexivity. Qed.
Example C28_example_dot : tokenize fo_sym cc_ascii true (s2l "-1.5.2") =
  Done (Err (EStr [PPos (mkPos 1 5); PText " tokenize_num(): unexpected char '"; PChar c_dot; PText "'"])).
Proof. vm_compute. reflexivity. Qed.
Example C28_example_string : tokenize fo_sym cc_ascii true (s2l "Shape ""disk") =
  Done (Err (EStr [PPos (mkPos 1 12); PText " tokenize_str(): EOF while processing string"])).
Proof. vm_compute. reflexivity. Qed.
Example C28_example_exponent : tokenize fo_sym cc_ascii true (s2l "2e+ 1") =
  Done (Err (EStr [PPos (mkPos 1 4); PText " tokenize_num(): no number"])).
Proof. vm_compute. reflexivity. Qed.
(** A text rejected by the specification: the sign ends the number. *)
Example C28_example_spec : lex_error fo_sym cc_ascii true [] (s2l "+]") [PPos (mkPos 1 2); PText " tokenize_num(): no number"].
Proof.
  apply le_here. apply te_num; [left; cbn; tauto|]. change (mkPos 1 2) with (pos_of ([] ++ s2l "+")).
  eapply ne_none with (rest := s2l "]"). constructor; try reflexivity.
  - constructor.
  - discriminate.
  - constructor.
  - cbn. split; [reflexivity|discriminate].
Qed.

(** ** C29: which token lists are rejected by the parser, and with which message *)
Theorem C29_syntax_errors : forall F (fo : FloatOps F) s m,
  parse_tokens fo s = Done (Err (EStr m)) <-> scene_error fo s m.
Proof. intros F fo. exact (parse_tokens_error_iff fo). Qed.
Print Assumptions C29_syntax_errors.
Theorem C29_parse_errors : forall F (fo : FloatOps F) cc, cc_ok cc -> forall chk input m,
  parse fo cc chk input = Done (Err (EStr m)) <->
  exists t, lf_text input t /\
    (lex_error fo cc chk [] t m \/ exists toks, lexes fo cc chk [] t toks /\ scene_error fo toks m).
Proof. intros F fo cc Hcc. exact (parse_error_iff fo cc Hcc). Qed.
Print Assumptions C29_parse_errors.
(** The grammar, the incomplete scenes and the errors share out all token lists. *)
Theorem C29_scene_or_error : forall F (fo : FloatOps F) s,
  ((exists x, scene fo s x) \/ scene_eof fo s \/ exists m, scene_error fo s m) /\
  (forall x, scene fo s x -> ~ scene_eof fo s /\ forall m, ~ scene_error fo s m) /\
  (scene_eof fo s -> forall m, ~ scene_error fo s m) /\
  (forall m m', scene_error fo s m -> scene_error fo s m' -> m = m').
Proof. intros F fo. exact (scene_or_error fo). Qed.
Print Assumptions C29_scene_or_error.
(** Positions in a message are those of tokens; a token is reported with its own position. *)
Theorem C29_positions : forall F (fo : FloatOps F) s m, parse_tokens fo s = Done (Err (EStr m)) ->
  forall p, mentions m p -> exists t, In t s /\ tok_pos t = p.
Proof. intros F fo. exact (syntax_positions fo). Qed.
Print Assumptions C29_positions.
Theorem C29_token : forall F (fo : FloatOps F) s p x ty,
  parse_tokens fo s = Done (Err (EStr [PPos p; PText x; PTok ty])) -> In (mkTok p ty) s.
Proof. intros F fo. exact (syntax_token fo). Qed.
Print Assumptions C29_token.
Example C29_example_unknown : parse fo_sym cc_ascii true (s2l "WorldBegin
 Sphere") = Done (Err (EStr [PPos (mkPos 2 2); PText " parse_directive(): unknown identifier "; PStr (s2l "Sphere")])).
Proof. vm_compute. reflexivity. Qed.
Example C29_example_count : parse fo_sym cc_ascii true (s2l "Identity Scale 1 2 WorldBegin WorldEnd") =
  Done (Err (EStr [PPos (mkPos 1 10); PText " parse_predirective(): "; PText "Scale"; PText " expects "; PNat 3;
                   PText " floats but was given "; PNat 2])).
Proof. vm_compute. reflexivity. Qed.
(** Reading stops inside a malformed parameter; the message is about the token it stops at. *)
Example C29_example_stuck : parse fo_sym cc_ascii true (s2l "WorldBegin Shape ""disk"" ""rgb L"" [1 2] WorldEnd") =
  Done (Err (EStr [PPos (mkPos 1 34); PText " parse_directives(): expected identifier or block close but got "; PTok (TInt 1)])).
Proof. vm_compute. reflexivity. Qed.
Example C29_example_nested : parse fo_sym cc_ascii true (s2l "Translate [1 2 3] WorldBegin WorldEnd") =
  Done (Err (EStr [PText "parse_many_"; PText "float"; PText "s(): error while processing "; PText "float"; PText "s:
  ";
    PErr (EStr [PPos (mkPos 1 11); PText " parse_float(): expected float but got "; PTok TLBracket])])).
Proof. vm_compute. reflexivity. Qed.

(** ** C77: does every error message say where?
    Full statement: whenever [parse] fails with a message, the message mentions a position. It is false. *)
Theorem C77_position_refuted : exists input m,
  parse fo_sym cc_ascii true input = Done (Err (EStr m)) /\ forall p, ~ mentions m p.
Proof. exact position_refuted. Qed.
Print Assumptions C77_position_refuted.
(** Missing: the position in exactly two groups of messages, failed number conversions and tokens that run out inside a
    directive. *)
Theorem C77_position_partial : forall F (fo : FloatOps F) cc, cc_ok cc -> forall chk input m,
  parse fo cc chk input = Done (Err (EStr m)) -> (exists p, mentions m p) \/ conversion_text m \/ end_text m.
Proof. intros F fo cc Hcc. exact (parse_located fo cc Hcc). Qed.
Print Assumptions C77_position_partial.
Example C77_example : exists m, parse fo_sym cc_ascii true (s2l "Include 5") = Done (Err (EStr m)) /\
  mentions m (mkPos 1 9).
Proof. eexists. split; [vm_compute; reflexivity|]. apply mn_here. left. reflexivity. Qed.
