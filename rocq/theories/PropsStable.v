(** Property theorems about tokens added at the end: C85. Nothing but statements, examples and [Print Assumptions]. *)
From Verif Require Import Base TokModel ParModel LexSpec SceneSpec SynErrSpec ErrSpec StableSpec PropsLexLemmas LexThms StableThms PropsSceneLemmas.

(** ** C85: an error that names a place is final *)
(** False: a placed error can go away when more numbers follow. *)
Theorem C85_final_refuted : exists (s u : list (Token sfloat)) m x, parse_tokens fo_sym s = Done (Err (EStr m)) /\
  placed m /\ parse_tokens fo_sym (s ++ u) = Done (Ok x).
Proof.
  exists (toks_of (s2l "Translate 1 2")), (toks_of (s2l "3 WorldBegin WorldEnd")). do 2 eexists.
  split; [vm_compute; reflexivity|]. split; [exists (mkPos 1 1); apply mn_here; cbn; tauto|vm_compute; reflexivity].
Qed.
Print Assumptions C85_final_refuted.
(** What holds: this is the only way, the two parts of the input have to meet between two numbers. *)
Theorem C85_final_partial : forall F (fo : FloatOps F) s m u, parse_tokens fo s = Done (Err (EStr m)) -> placed m ->
  ~ between_numbers s u -> parse_tokens fo (s ++ u) = Done (Err (EStr m)).
Proof. intros F fo. exact (placed_final fo). Qed.
Print Assumptions C85_final_partial.
(** On texts: adding lines. *)
Theorem C85_final_text_partial : forall F (fo : FloatOps F) cc, cc_ok cc -> forall chk a ta b tb m, ~ ends_cr a ->
  tokenize fo cc chk a = Done (Ok ta) -> tokenize fo cc chk b = Done (Ok tb) ->
  parse fo cc chk a = Done (Err (EStr m)) -> placed m -> ~ between_numbers ta tb ->
  parse fo cc chk (a ++ c_lf :: b) = Done (Err (EStr m)).
Proof. intros F fo cc Hcc. exact (placed_final_text fo cc Hcc). Qed.
Print Assumptions C85_final_text_partial.
(** A result is final, too. *)
Theorem C85_success_final : forall F (fo : FloatOps F) s x u, parse_tokens fo s = Done (Ok x) ->
  parse_tokens fo (s ++ u) = Done (Ok x).
Proof. intros F fo. exact (ok_final fo). Qed.
Print Assumptions C85_success_final.
(** The other way round: as long as no place is named, the input can be completed to an accepted one. *)
Theorem C85_completable : forall F (fo : FloatOps F) s,
  (forall m, parse_tokens fo s = Done (Err (EStr m)) -> ~ placed m) -> exists v x, parse_tokens fo (s ++ v) = Done (Ok x).
Proof. intros F fo. exact (unplaced_completable fo). Qed.
Print Assumptions C85_completable.
(** So, unless the last token is a number, a place is named exactly if no accepted input begins like this. *)
Theorem C85_viable_partial : forall F (fo : FloatOps F) s, (forall s' t, s = s' ++ [t] -> ~ number_tok t) ->
  ((exists v x, parse_tokens fo (s ++ v) = Done (Ok x)) <-> forall m, parse_tokens fo s = Done (Err (EStr m)) -> ~ placed m).
Proof. intros F fo. exact (viable fo). Qed.
Print Assumptions C85_viable_partial.
Example C85_example_final : exists s u m, parse_tokens fo_sym s = Done (Err (EStr m)) /\ placed m /\ u <> [] /\
  ~ between_numbers s u /\ parse_tokens fo_sym (s ++ u) = Done (Err (EStr m)).
Proof.
  exists (toks_of (s2l "WorldBegin Shape ""sphere"" ""rgb L"" [1 2")), (toks_of (s2l "] WorldEnd")). eexists.
  split; [vm_compute; reflexivity|]. split; [eexists; apply mn_here; cbn; now left|]. split; [intros E; vm_compute in E; discriminate E|].
  split; [|vm_compute; reflexivity]. intros (s' & t & t' & u' & _ & _ & E & Ht'). vm_compute in E. injection E as <- _. exact Ht'.
Qed.
Example C85_example_text : exists ta tb m, tokenize fo_sym cc_ascii true (s2l "Camera 5 x") = Done (Ok ta) /\
  tokenize fo_sym cc_ascii true (s2l "WorldBegin WorldEnd") = Done (Ok tb) /\
  parse fo_sym cc_ascii true (s2l "Camera 5 x") = Done (Err (EStr m)) /\ placed m /\ ~ between_numbers ta tb.
Proof.
  do 3 eexists. split; [vm_compute; reflexivity|]. split; [vm_compute; reflexivity|]. split; [vm_compute; reflexivity|].
  split; [eexists; apply mn_here; cbn; now left|]. intros (s' & t & t' & u' & _ & _ & E & Ht'). injection E as <- _. exact Ht'.
Qed.
(** An input that stops in the middle of a directive, and a completion. *)
Example C85_example_completable : exists m x, parse_tokens fo_sym (toks_of (s2l "Identity WorldBegin Texture ""a"" ""b""")) =
    Done (Err (EStr m)) /\ ~ placed m /\
  parse_tokens fo_sym (toks_of (s2l "Identity WorldBegin Texture ""a"" ""b""") ++ toks_of (s2l """c"" WorldEnd")) = Done (Ok x).
Proof.
  do 2 eexists. split; [vm_compute; reflexivity|]. split; [apply unplaced_text|vm_compute; reflexivity].
Qed.
(** Without the condition on the last token [C85_viable_partial] is false. *)
Example C85_example_number : exists v x m, parse_tokens fo_sym (toks_of (s2l "Scale 1") ++ v) = Done (Ok x) /\
  parse_tokens fo_sym (toks_of (s2l "Scale 1")) = Done (Err (EStr m)) /\ placed m.
Proof.
  exists (toks_of (s2l "2 3 WorldBegin WorldEnd")). do 2 eexists. split; [vm_compute; reflexivity|].
  split; [vm_compute; reflexivity|]. eexists. apply mn_here. cbn. now left.
Qed.
