(** Property theorems about positions and about texts put together: C97-C99. Nothing but statements, examples and
    [Print Assumptions]. *)
From Verif Require Import Base TokModel ParModel LexSpec SceneSpec SceneObs MoveSpec MoveProofs ConcatProofs.

(** ** C97: positions are carried along and never looked at *)
(** Whatever is done to the positions of the tokens is done to the positions in the scene or in the message, and nothing
    else changes. *)
Theorem C97_positions : forall F (fo : FloatOps F) h toks,
  parse_tokens fo (map (mv_tok h) toks) = mv_outcome h (mv_scene h) (parse_tokens fo toks).
Proof. intros F. exact parse_tokens_moved. Qed.
Print Assumptions C97_positions.
(** A text below another: all positions move down, those in a message of the tokenizer too. *)
Theorem C97_below : forall F (fo : FloatOps F) cc, cc_ok cc -> forall chk a ta b, ~ ends_cr a ->
  tokenize fo cc chk a = Done (Ok ta) ->
  tokenize fo cc chk (a ++ c_lf :: b) =
    mv_outcome (down (lines a)) (fun tb => ta ++ map (mv_tok (down (lines a))) tb) (tokenize fo cc chk b).
Proof. intros F fo cc Hcc. exact (tokenize_cat fo cc Hcc). Qed.
Print Assumptions C97_below.
Example C97_example : parse_tokens fo_sym (map (mv_tok (down 4)) [kw "Identity" (mkPos 1 1); kw "WorldBegin" (mkPos 2 1); kw "WorldEnd" (mkPos 3 2)]) =
  Done (Ok ([PIdentity (mkPos 5 1)], DWorld (mkPos 6 1) [])) /\
  tokenize fo_sym cc_ascii true (s2l "Identity
 ;") = Done (Err (EStr [PPos (mkPos 2 2); PText " tokenize_one(): unexpected char '"; PChar 59%N; PText "'"])).
Proof. split; vm_compute; reflexivity. Qed.

(** ** C98: pre-directives in front of a text *)
(** If [a] consists of pre-directives, then [a] in front of [b] parses like [b] with these in front, [b] moved down; if [b] is
    rejected, so is the whole, with the same message. Whether [a] consists of pre-directives is asked of the program itself,
    with an empty world block. *)
Theorem C98_header : forall F (fo : FloatOps F) cc, cc_ok cc -> forall chk a ta ps b, ~ ends_cr a ->
  tokenize fo cc chk a = Done (Ok ta) ->
  parse fo cc chk (a ++ c_lf :: s2l "WorldBegin WorldEnd") = Done (Ok (ps, DWorld (mkPos (lines a + 1) 1) [])) ->
  (forall tb, tokenize fo cc chk b = Done (Ok tb) -> quiet tb) ->
  parse fo cc chk (a ++ c_lf :: b) =
    in_front ps (mv_outcome (down (lines a)) (mv_scene (down (lines a))) (parse fo cc chk b)).
Proof. intros F fo cc Hcc. exact (parse_header fo cc Hcc). Qed.
Print Assumptions C98_header.
Theorem C98_tokens : forall F (fo : FloatOps F) ta ps tb, pre_reaches fo ta ps [] -> quiet tb ->
  parse_tokens fo (ta ++ tb) = in_front ps (parse_tokens fo tb).
Proof. exact @parse_tokens_header. Qed.
Print Assumptions C98_tokens.
(** Asking the program is no restriction. *)
Theorem C98_asked : forall F (fo : FloatOps F) cc, cc_ok cc -> forall chk a ta ps, ~ ends_cr a ->
  tokenize fo cc chk a = Done (Ok ta) ->
  (parse fo cc chk (a ++ c_lf :: s2l "WorldBegin WorldEnd") = Done (Ok (ps, DWorld (mkPos (lines a + 1) 1) [])) <->
   pre_reaches fo ta ps []).
Proof. intros F fo cc Hcc. exact (header_text fo cc Hcc). Qed.
Print Assumptions C98_asked.
Example C98_example : exists ta ps tb, tokenize fo_sym cc_ascii true (s2l "Film ""f"" ""integer x"" [2]
Identity") = Done (Ok ta) /\ length ps = 2 /\
  parse fo_sym cc_ascii true (s2l "Film ""f"" ""integer x"" [2]
Identity" ++ c_lf :: s2l "WorldBegin WorldEnd") = Done (Ok (ps, DWorld (mkPos (lines (s2l "Film ""f"" ""integer x"" [2]
Identity") + 1) 1) [])) /\
  tokenize fo_sym cc_ascii true (s2l "WorldBegin Shape WorldEnd") = Done (Ok tb) /\ quiet tb.
Proof.
  do 3 eexists. split; [vm_compute; reflexivity|]. split; [|split; [vm_compute; reflexivity|]]; [reflexivity|].
  split; [vm_compute; reflexivity|exact I].
Qed.
(** Without the condition on [b] the two texts run into each other. *)
Theorem C98_quiet_needed_refuted : exists ta ps tb, pre_reaches fo_sym ta ps [] /\
  parse_tokens fo_sym (ta ++ tb) <> in_front ps (parse_tokens fo_sym tb).
Proof. exact header_needs_quiet. Qed.
Print Assumptions C98_quiet_needed_refuted.

(** ** C99: directives in front of a text *)
(** If [a] has no closing keyword and parses as the content [ds] of a world block, then [a] in front of [b] parses like [b] with
    [ds] in front, where blocks left open in [a] also contain what [b] adds. *)
Theorem C99_body : forall F (fo : FloatOps F) cc, cc_ok cc -> forall chk a ta ds b, ~ ends_cr a ->
  tokenize fo cc chk a = Done (Ok ta) -> Forall (fun t => ~ is_closer_tok t) ta ->
  parse fo cc chk (s2l "WorldBegin" ++ c_lf :: a ++ c_lf :: s2l "WorldEnd") = Done (Ok ([], DWorld (mkPos 1 1) ds)) ->
  (forall tb, tokenize fo cc chk b = Done (Ok tb) -> quiet tb) ->
  parse fo cc chk (s2l "WorldBegin" ++ c_lf :: a ++ c_lf :: b) =
    in_body ds (mv_outcome (below 1 (lines a)) (mv_scene (below 1 (lines a))) (parse fo cc chk (s2l "WorldBegin" ++ c_lf :: b))).
Proof. intros F fo cc Hcc. exact (parse_body fo cc Hcc). Qed.
Print Assumptions C99_body.
Theorem C99_tokens : forall F (fo : FloatOps F) ta ds p q tb, Forall (fun t => ~ is_closer_tok t) ta ->
  parse_tokens fo (kw "WorldBegin" p :: ta ++ [kw "WorldEnd" q]) = Done (Ok ([], DWorld p ds)) -> quiet tb ->
  parse_tokens fo (kw "WorldBegin" p :: ta ++ tb) = in_body ds (parse_tokens fo (kw "WorldBegin" p :: tb)).
Proof. exact @parse_tokens_body. Qed.
Print Assumptions C99_tokens.
Example C99_example : exists ta ds, tokenize fo_sym cc_ascii true (s2l "Include ""a"" AttributeBegin Include ""b""") = Done (Ok ta) /\
  Forall (fun t => ~ is_closer_tok t) ta /\
  parse fo_sym cc_ascii true (s2l "WorldBegin" ++ c_lf :: s2l "Include ""a"" AttributeBegin Include ""b""" ++ c_lf :: s2l "WorldEnd") =
    Done (Ok ([], DWorld (mkPos 1 1) ds)) /\
  ds = [DInclude (mkPos 2 1) (s2l "a"); DAttribute (mkPos 2 13) [DInclude (mkPos 2 28) (s2l "b")]] /\
  parse fo_sym cc_ascii true (s2l "WorldBegin" ++ c_lf :: s2l "Include ""a"" AttributeBegin Include ""b""" ++ c_lf :: s2l "Include ""c"" WorldEnd") =
    Done (Ok ([], DWorld (mkPos 1 1) [DInclude (mkPos 2 1) (s2l "a");
      DAttribute (mkPos 2 13) [DInclude (mkPos 2 28) (s2l "b"); DInclude (mkPos 3 1) (s2l "c")]])).
Proof.
  do 2 eexists. split; [vm_compute; reflexivity|]. split.
  - repeat constructor; intros (id & E & Hi); vm_compute in E; try discriminate E; injection E as <-; vm_compute in Hi; intuition discriminate.
  - split; [vm_compute; reflexivity|]. split; [vm_compute; reflexivity|]. vm_compute. reflexivity.
Qed.
