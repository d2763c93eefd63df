(** Property theorems about what a scene remembers of its text: C122. Nothing but statements, examples and [Print Assumptions]. *)
From Verif Require Import Base TokModel ParModel LexSpec SceneSpec SceneObs StableSpec ReorderSpec RememberSpec RememberProofs.

(** ** C122: two texts give the same scene exactly if they make the same statements *)
(** The scene of a text is what its statements up to the first closer mean. *)
Theorem C122_statements : forall F (fo : FloatOps F) cc chk input x, parse fo cc chk input = Done (Ok x) <->
  exists ts l r, tokenize fo cc chk input = Done (Ok ts) /\ statements fo ts l r /\ scene_of l x.
Proof. intros F. exact text_statements. Qed.
Print Assumptions C122_statements.
(** Texts with the same scene make the same statements, at the same places, with the same parameters in the same order. *)
Theorem C122_same_scene : forall F (fo : FloatOps F) cc, cc_ok cc -> forall chk chk' a b x,
  parse fo cc chk a = Done (Ok x) -> parse fo cc chk' b = Done (Ok x) ->
  exists ts ts' l r r', tokenize fo cc chk a = Done (Ok ts) /\ tokenize fo cc chk' b = Done (Ok ts') /\ statements fo ts l r /\ statements fo ts' l r'.
Proof. intros F. exact text_same. Qed.
Print Assumptions C122_same_scene.
(** Conversely, texts that make the same statements have the same scene. *)
Theorem C122_same_statements : forall F (fo : FloatOps F) cc chk chk' a b ts ts' l r r' x,
  tokenize fo cc chk a = Done (Ok ts) -> tokenize fo cc chk' b = Done (Ok ts') ->
  statements fo ts l r -> statements fo ts' l r' -> scene_of l x -> parse fo cc chk a = Done (Ok x) /\ parse fo cc chk' b = Done (Ok x).
Proof. intros F. exact text_converse. Qed.
Print Assumptions C122_same_statements.
(** Token lists whose places are not in order: the order of parameters of different kinds is lost as well, and nothing else. *)
Theorem C122_tokens : forall F (fo : FloatOps F) ts ts' x, parse_tokens fo ts = Done (Ok x) ->
  (parse_tokens fo ts' = Done (Ok x) <->
   exists l r l' r', statements fo ts l r /\ scene_of l x /\ statements fo ts' l' r' /\ Forall2 same_stmt l l').
Proof. intros F. exact tokens_same. Qed.
Print Assumptions C122_tokens.
(** Statements mean one scene at most. *)
Theorem C122_meaning : forall F (l l' : list (stmt (F := F))) x, scene_of l x -> scene_of l' x -> Forall2 same_stmt l l'.
Proof. intros F l l' x H. exact (scene_of_inj l x H l'). Qed.
Print Assumptions C122_meaning.

(** What is not remembered. Brackets around a single value, the places of values, blanks in a header, and the closer: *)
Theorem C122_spelling_refuted : exists (a b : str) x, a <> b /\
  (parse fo_sym cc_ascii true a = Done (Ok x) /\ parse fo_sym cc_ascii true b = Done (Ok x)) /\
  a = s2l "WorldBegin Shape ""cone"" ""integer n"" [1] WorldEnd" /\ b = s2l "WorldBegin Shape ""cone"" ""integer  n""  1 AttributeEnd".
Proof. do 3 eexists. split; [|split; [|split; reflexivity]]; [discriminate|]. split; vm_compute; reflexivity. Qed.
Print Assumptions C122_spelling_refuted.
(** A malformed parameter at the end of a statement, and whatever follows the closer. *)
Theorem C122_dropped_refuted : exists (a b : str) x, a <> b /\
  (parse fo_sym cc_ascii true a = Done (Ok x) /\ parse fo_sym cc_ascii true b = Done (Ok x)) /\
  a = s2l "WorldBegin Shape ""cone"" ""integer n"" [1 2 WorldEnd" /\ b = s2l "WorldBegin Shape ""cone"" WorldEnd Shape ""disk""".
Proof. do 3 eexists. split; [|split; [|split; reflexivity]]; [discriminate|]. split; vm_compute; reflexivity. Qed.
Print Assumptions C122_dropped_refuted.
(** In a list of tokens, the order of parameters of different kinds. *)
Theorem C122_order_refuted : exists (ts ts' : list (Token sfloat)) x, ts <> ts' /\ map tok_ty ts <> map tok_ty ts' /\
  parse_tokens fo_sym ts = Done (Ok x) /\ parse_tokens fo_sym ts' = Done (Ok x).
Proof.
  pose (tok := mkTok (F := sfloat) (mkPos 1 1)).
  pose (i := [tok (TStr (s2l "integer n")); tok (TInt 1)]). pose (s := [tok (TStr (s2l "string n")); tok (TStr (s2l "a"))]).
  pose (w := [tok (TIdent (s2l "WorldBegin")); tok (TIdent (s2l "Shape")); tok (TStr (s2l "cone"))]).
  exists (w ++ i ++ s ++ [tok (TIdent (s2l "WorldEnd"))]), (w ++ s ++ i ++ [tok (TIdent (s2l "WorldEnd"))]). eexists.
  split; [discriminate|]. split; [discriminate|]. split; vm_compute; reflexivity.
Qed.
Print Assumptions C122_order_refuted.
Example C122_example : exists ts r x, tokenize fo_sym cc_ascii true (s2l "Identity WorldBegin Shape ""cone"" ""integer n"" [1] WorldEnd") = Done (Ok ts) /\
  statements fo_sym ts [SAlone (mkPos 1 1) (s2l "Identity"); SAlone (mkPos 1 10) (s2l "WorldBegin");
    SParams (mkPos 1 21) (s2l "Shape") [s2l "cone"] [mkPI (s2l "n") (mkPos 1 34) (VInts [1%Z])]] r /\
  scene_of (F := sfloat) [SAlone (mkPos 1 1) (s2l "Identity"); SAlone (mkPos 1 10) (s2l "WorldBegin");
    SParams (mkPos 1 21) (s2l "Shape") [s2l "cone"] [mkPI (s2l "n") (mkPos 1 34) (VInts [1%Z])]] x.
Proof.
  do 3 eexists. split; [vm_compute; reflexivity|]. split.
  - eapply ss_more; [apply st_alone; cbn; tauto|]. eapply ss_more; [apply st_alone; cbn; tauto|].
    eapply ss_more; [|apply (ss_close fo_sym (mkPos 1 50) (s2l "WorldEnd") []); cbn; tauto]. eapply (st_params fo_sym _ _ [_] [_]); [cbn; tauto|reflexivity|].
    eapply ps_cons; [|apply ps_end; exact I]. eapply (pa _ _ _ (s2l "integer")).
    + split; [|split; [|exists [], [32%N], []]].
      * split; [discriminate|repeat constructor].
      * split; [discriminate|repeat constructor].
      * repeat split; try constructor; try discriminate; constructor.
    + apply (va_int fo_sym). apply ol_list. eapply br. apply it_one. constructor.
  - eapply so_pre; [apply po_identity|]. apply so_world. eapply wo_struct; [exact sk_shape|constructor].
Qed.
Example C122_same_example : exists x, parse fo_sym cc_ascii true (s2l "WorldBegin Shape ""cone"" ""integer n"" [1] WorldEnd") = Done (Ok x) /\
  parse fo_sym cc_ascii false (s2l "WorldBegin Shape ""cone"" ""integer  n""  1 AttributeEnd") = Done (Ok x).
Proof. eexists. split; vm_compute; reflexivity. Qed.
