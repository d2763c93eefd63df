(** Property theorems about where errors are reported and how large scenes are: C100 and C101. Nothing but statements,
    examples and [Print Assumptions]. *)
From Verif Require Import Base TokModel ParModel LexSpec SceneSpec ErrSpec StableSpec ViableSpec SizeSpec PropsLexLemmas LexThms
  StableThms PropsSceneLemmas ViableProofs ViableText SizeProofs.

(** ** C100: the place an error names is that of the first wrong token *)
(** It is never too late: some accepted input begins with everything that stands before it. *)
Theorem C100_never_late : forall F (fo : FloatOps F) s m p, parse_tokens fo s = Done (Err (EStr m)) -> mentions m p ->
  exists a t b, s = a ++ t :: b /\ tok_pos t = p /\ beginning fo a.
Proof. intros F fo. exact (place_not_late fo). Qed.
Print Assumptions C100_never_late.
(** On texts: the characters before the place can be completed to an accepted text. *)
Theorem C100_never_late_text : forall F (fo : FloatOps F) cc, cc_ok cc -> forall chk input m p ts, no_pair input ->
  tokenize fo cc chk input = Done (Ok ts) -> parse fo cc chk input = Done (Err (EStr m)) -> mentions m p ->
  exists pre rest, input = pre ++ rest /\ rest <> [] /\ p = pos_of pre /\
    exists w x, parse fo cc chk (pre ++ 32%N :: w) = Done (Ok x).
Proof. intros F fo cc Hcc. exact (place_text fo cc Hcc). Qed.
Print Assumptions C100_never_late_text.
(** But it may be too early: up to and including the token named, nothing is wrong yet. *)
Theorem C100_first_wrong_refuted : exists (s : list (Token sfloat)) m p a t b, parse_tokens fo_sym s = Done (Err (EStr m)) /\
  mentions m p /\ s = a ++ t :: b /\ tok_pos t = p /\ ~ count_message m /\ beginning fo_sym (a ++ [t]).
Proof.
  exists (toks_of (s2l "WorldBegin Shape ""a"" ""rgb L"" [1 2]")). do 2 eexists.
  exists (toks_of (s2l "WorldBegin Shape ""a"" ""rgb L"" [")), (mkTok (mkPos 1 31) (TInt 1)). eexists.
  split; [vm_compute; reflexivity|]. split; [apply mn_here; left; reflexivity|]. split; [vm_compute; reflexivity|].
  split; [reflexivity|]. split; [intros (p & w & n & k & E); discriminate E|].
  exists (toks_of (s2l "2 3] WorldEnd")). eexists. vm_compute. reflexivity.
Qed.
Print Assumptions C100_first_wrong_refuted.
(** What holds: unless the token named is a number, or the message counts the numbers after a keyword, nothing that could
    follow the token named makes a difference. *)
Theorem C100_first_wrong_partial : forall F (fo : FloatOps F) s m p, parse_tokens fo s = Done (Err (EStr m)) -> mentions m p ->
  exists a t b, s = a ++ t :: b /\ tok_pos t = p /\ beginning fo a /\
    (count_message m \/ number_tok t \/ forall v, parse_tokens fo (a ++ t :: v) = Done (Err (EStr m))).
Proof. intros F fo. exact (place_viable fo). Qed.
Print Assumptions C100_first_wrong_partial.
(** Exactly which token lists begin accepted inputs: those that name no place, maybe after adding numbers. *)
Theorem C100_beginnings : forall F (fo : FloatOps F) s, beginning fo s <->
  exists n, Forall number_tok n /\ forall m, parse_tokens fo (s ++ n) = Done (Err (EStr m)) -> ~ placed m.
Proof. intros F fo. exact (beginnings fo). Qed.
Print Assumptions C100_beginnings.
Example C100_example : exists m p, parse_tokens fo_sym (toks_of (s2l "Identity WorldBegin AttributeBegin Shape 5")) = Done (Err (EStr m)) /\
  mentions m p /\ p = mkPos 1 42 /\ ~ count_message m.
Proof.
  do 2 eexists. split; [vm_compute; reflexivity|]. split; [apply mn_here; left; reflexivity|]. split; [reflexivity|].
  intros (p & w & n & k & E). discriminate E.
Qed.
Example C100_example_text : exists ts m, no_pair (s2l "Camera ""a"" ]") /\
  tokenize fo_sym cc_ascii true (s2l "Camera ""a"" ]") = Done (Ok ts) /\
  parse fo_sym cc_ascii true (s2l "Camera ""a"" ]") = Done (Err (EStr m)) /\ mentions m (mkPos 1 12) /\
  pos_of (s2l "Camera ""a"" ") = mkPos 1 12 /\
  exists x, parse fo_sym cc_ascii true (s2l "Camera ""a"" " ++ 32%N :: s2l "WorldBegin WorldEnd") = Done (Ok x).
Proof.
  do 2 eexists. split.
  { intros a b E. assert (H : In c_cr (s2l "Camera ""a"" ]")) by (rewrite E; apply in_or_app; right; now left).
    vm_compute in H. intuition discriminate. }
  split; [vm_compute; reflexivity|]. split; [vm_compute; reflexivity|]. split; [apply mn_here; left; reflexivity|].
  split; [vm_compute; reflexivity|]. eexists. vm_compute. reflexivity.
Qed.
(** Both exceptions of [C100_first_wrong_partial] occur; here a count. *)
Example C100_example_count : exists m, parse_tokens fo_sym (toks_of (s2l "Translate 1 2 WorldBegin WorldEnd")) = Done (Err (EStr m)) /\
  mentions m (mkPos 1 1) /\ count_message m /\ beginning fo_sym (toks_of (s2l "Translate")).
Proof.
  eexists. split; [vm_compute; reflexivity|]. split; [apply mn_here; left; reflexivity|]. split; [do 4 eexists; reflexivity|].
  exists (toks_of (s2l "1 2 3 WorldBegin WorldEnd")). eexists. vm_compute. reflexivity.
Qed.
(** A beginning that names a place. *)
Example C100_example_beginning : exists m, parse_tokens fo_sym (toks_of (s2l "Translate 1")) = Done (Err (EStr m)) /\ placed m /\
  beginning fo_sym (toks_of (s2l "Translate 1")).
Proof.
  eexists. split; [vm_compute; reflexivity|]. split; [eexists; apply mn_here; left; reflexivity|].
  exists (toks_of (s2l "2 3 WorldBegin WorldEnd")). eexists. vm_compute. reflexivity.
Qed.

(** ** C101: a scene is no larger than its text *)
Theorem C101_size : forall F (fo : FloatOps F) cc, cc_ok cc -> forall chk input x, parse fo cc chk input = Done (Ok x) ->
  scene_size x <= length input.
Proof. intros F fo cc Hcc. exact (parse_size fo cc Hcc). Qed.
Print Assumptions C101_size.
Theorem C101_tokens : forall F (fo : FloatOps F) cc, cc_ok cc -> forall chk input ts, tokenize fo cc chk input = Done (Ok ts) ->
  sum token_size ts <= length input.
Proof. intros F fo cc Hcc. exact (tokenize_size fo cc Hcc). Qed.
Print Assumptions C101_tokens.
Theorem C101_scene : forall F (fo : FloatOps F) s x, parse_tokens fo s = Done (Ok x) -> scene_size x <= sum token_size s.
Proof. intros F fo. exact (parse_tokens_size fo). Qed.
Print Assumptions C101_scene.
Example C101_example : exists x, parse fo_sym cc_ascii true
  (s2l "Camera ""c"" ""string s"" [""ab"" ""c""] WorldBegin Shape ""sphere"" ""rgb L"" [1 2 3] ""float r"" 1 WorldEnd") = Done (Ok x) /\
  scene_size x = 27.
Proof. eexists. split; vm_compute; reflexivity. Qed.
