(** Property theorems about texts cut short: C121. Nothing but statements, examples and [Print Assumptions]. *)
From Verif Require Import Base TokModel ParModel LexSpec SceneSpec SceneObs StableSpec CutSpec CutProofs.

(** ** C121: a text cut short is never read as another scene *)
(** Cut anywhere, also inside a token or between CR and LF: the piece is rejected, or it gives the very same scene. *)
Theorem C121_same_scene : forall F (fo : FloatOps F) cc, cc_ok cc -> forall chk a b x y,
  parse fo cc chk (a ++ b) = Done (Ok x) -> parse fo cc chk a = Done (Ok y) -> y = x.
Proof. intros F. exact cut_text. Qed.
Print Assumptions C121_same_scene.
(** In the second case the closer of the world block is in the piece, whole. *)
Theorem C121_closer_in : forall F (fo : FloatOps F) cc, cc_ok cc -> forall chk a b ts ts' x y,
  tokenize fo cc chk (a ++ b) = Done (Ok ts) -> tokenize fo cc chk a = Done (Ok ts') ->
  parse fo cc chk (a ++ b) = Done (Ok x) -> parse fo cc chk a = Done (Ok y) ->
  exists h p mid t r r', ts = h ++ mkTok p (TIdent (s2l "WorldBegin")) :: mid ++ t :: r /\
    ts' = h ++ mkTok p (TIdent (s2l "WorldBegin")) :: mid ++ t :: r' /\ dir_pos (snd x) = p /\ is_closer_tok t /\ Forall (fun t => ~ is_closer_tok t) mid.
Proof. intros F. exact cut_closer. Qed.
Print Assumptions C121_closer_in.
(** And then every longer piece gives the scene as well, unless it is cut so that it cannot be split into tokens. *)
Theorem C121_longer : forall F (fo : FloatOps F) cc, cc_ok cc -> forall chk a b c x y ts,
  parse fo cc chk (a ++ b ++ c) = Done (Ok x) -> parse fo cc chk a = Done (Ok y) ->
  tokenize fo cc chk (a ++ b) = Done (Ok ts) -> parse fo cc chk (a ++ b) = Done (Ok x).
Proof. intros F. exact cut_longer. Qed.
Print Assumptions C121_longer.
(** The tokens of the piece are tokens of the text, but for the last, which may be the beginning of an identifier or of a number. *)
Theorem C121_tokens : forall F (fo : FloatOps F) cc, cc_ok cc -> forall chk a b ts ts',
  tokenize fo cc chk (a ++ b) = Done (Ok ts) -> tokenize fo cc chk a = Done (Ok ts') -> cut_tokens ts ts'.
Proof. intros F. exact tokens_cut. Qed.
Print Assumptions C121_tokens.
(** The token lists alone. *)
Theorem C121_token_lists : forall F (fo : FloatOps F) ts ts' x y, cut_tokens ts ts' ->
  parse_tokens fo ts = Done (Ok x) -> parse_tokens fo ts' = Done (Ok y) -> y = x.
Proof. intros F. exact cut_lists. Qed.
Print Assumptions C121_token_lists.

(** The whole text has to be accepted: a piece may be, though the text is not. *)
Theorem C121_whole_refuted : exists (a b : str) x m, parse fo_sym cc_ascii true a = Done (Ok x) /\
  parse fo_sym cc_ascii true (a ++ b) = Done (Err (EStr m)).
Proof. exists (s2l "WorldBegin WorldEnd"), (s2l "ing"). do 2 eexists. split; vm_compute; reflexivity. Qed.
Print Assumptions C121_whole_refuted.
(** A piece with the closer may be rejected for what follows, though a shorter one and the whole text are not. *)
Theorem C121_longer_refuted : exists (a b c : str) x m, parse fo_sym cc_ascii true a = Done (Ok x) /\
  parse fo_sym cc_ascii true (a ++ b) = Done (Err (EStr m)) /\ parse fo_sym cc_ascii true (a ++ b ++ c) = Done (Ok x).
Proof. exists (s2l "WorldBegin WorldEnd"), (s2l " ""en"), (s2l "d"""). do 2 eexists. split; [vm_compute; reflexivity|]. split; vm_compute; reflexivity. Qed.
Print Assumptions C121_longer_refuted.
(** It may even panic. *)
Theorem C121_panic_refuted : exists (a b : str) x, parse fo_sym cc_ascii true (a ++ b) = Done (Ok x) /\ parse fo_sym cc_ascii true a = Panic.
Proof. exists (s2l "WorldBegin WorldEnd 5e20"), (s2l ".0"). eexists. split; vm_compute; reflexivity. Qed.
Print Assumptions C121_panic_refuted.
Definition cu_text : str := s2l "Translate 10 20 30 WorldBegin Shape ""cone"" ""integer n"" 12 WorldEnd".
Example C121_example : exists x y, parse fo_sym cc_ascii true (cu_text ++ s2l " 12.5 Shape") = Done (Ok x) /\
  parse fo_sym cc_ascii true (cu_text ++ s2l " 12.") = Done (Ok y) /\ y = x /\
  exists e, parse fo_sym cc_ascii true (removelast cu_text) = Done (Err e).
Proof. do 2 eexists. split; [vm_compute; reflexivity|]. split; [vm_compute; reflexivity|]. split; [reflexivity|]. eexists. vm_compute. reflexivity. Qed.
Example C121_cut_example : exists ts ts', tokenize fo_sym cc_ascii true (s2l "Shape 12 World") = Done (Ok ts) /\ tokenize fo_sym cc_ascii true (s2l "Shape 1") = Done (Ok ts') /\
  cut_tokens ts ts' /\ ts' <> firstn 2 ts.
Proof.
  do 2 eexists. split; [vm_compute; reflexivity|]. split; [vm_compute; reflexivity|]. split; [|discriminate].
  eexists [_], [_; _]. split; [reflexivity|]. right. do 3 eexists. split; [reflexivity|]. split; [reflexivity|]. now apply ct_number.
Qed.
Example C121_longer_example : exists x y ts, parse fo_sym cc_ascii true (cu_text ++ s2l " 12" ++ s2l ".5 Shape") = Done (Ok x) /\
  parse fo_sym cc_ascii true cu_text = Done (Ok y) /\ tokenize fo_sym cc_ascii true (cu_text ++ s2l " 12") = Done (Ok ts).
Proof. do 3 eexists. split; [vm_compute; reflexivity|]. split; vm_compute; reflexivity. Qed.
