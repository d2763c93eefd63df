(** Property theorems about the functions that read values: C92 and C93. Nothing but statements, examples and
    [Print Assumptions]. *)
From Verif Require Import Base TokModel ParModel SceneSpec SceneObs SynErrSpec ValueSpec ValueProofs PropsSceneLemmas.

(** ** C92: values and lists of values are read exactly as specified, and fail with exactly the specified error *)
Theorem C92_one : forall F (fo : FloatOps F) T p item err, reader fo T p item err -> behaves p item (stays err).
Proof. intros F fo T p item err R. exact (ex_behaves _ _ _ (reader_exact fo T p item err R)). Qed.
Print Assumptions C92_one.
Theorem C92_identifier : forall F, behaves (F := F) parse_identifier ident_item (stays ident_error).
Proof. intros F. exact ident_behaves. Qed.
Print Assumptions C92_identifier.
Theorem C92_many : forall F (fo : FloatOps F) T p item err name, reader fo T p item err ->
  behaves (parse_many p name) (many_items item err) (stays (many_error err name)).
Proof. intros F fo T p item err name R. exact (many_behaves _ _ _ (reader_exact fo T p item err R) name). Qed.
Print Assumptions C92_many.
Theorem C92_n : forall F (fo : FloatOps F) T p item err name n, reader fo T p item err -> 0 < n ->
  behaves (parse_n p n name) (n_items item n) (stays (n_error item err name n)).
Proof. intros F fo T p item err name n R. exact (n_behaves _ _ _ (reader_exact fo T p item err R) name n). Qed.
Print Assumptions C92_n.
(** Asked for no value at all, the program stops with a panic. *)
Theorem C92_n_zero : forall F T (p : M (@parser F) (result T (error F))) name st, parse_n p 0 name st = Panic.
Proof. intros F T. exact n_zero. Qed.
Print Assumptions C92_n_zero.
Theorem C92_list : forall F (fo : FloatOps F) T p item err name, reader fo T p item err ->
  behaves (parse_list p name) (bracketed item) (list_error item err name).
Proof. intros F fo T p item err name R. exact (list_behaves _ _ _ (reader_exact fo T p item err R) name). Qed.
Print Assumptions C92_list.
Theorem C92_list_of_n : forall F (fo : FloatOps F) T p item err name n, reader fo T p item err -> 0 < n ->
  behaves (parse_list_of_n p n name) (fun s vs r => bracketed item s vs r /\ length vs = n) (list_n_error item err name n).
Proof. intros F fo T p item err name n R. exact (list_n_behaves _ _ _ (reader_exact fo T p item err R) name n). Qed.
Print Assumptions C92_list_of_n.
Theorem C92_one_or_list : forall F (fo : FloatOps F) T p item err name, reader fo T p item err ->
  behaves (parse_one_or_list p name) (one_or_list item) (one_error item err name).
Proof. intros F fo T p item err name R. exact (one_behaves _ _ _ (reader_exact fo T p item err R) name). Qed.
Print Assumptions C92_one_or_list.
(** The examples are the tests of parser.rs 1508-1640. *)
Example C92_example_one : parse_one_or_list parse_int "int" (mkPr (toks_of (s2l "1")) 0) = Done (Ok [1%Z], mkPr (toks_of (s2l "1")) 1).
Proof. vm_compute. reflexivity. Qed.
Example C92_example_list : let ts := toks_of (s2l "[1 2 3]") in
  parse_one_or_list parse_int "int" (mkPr ts 0) = Done (Ok [1; 2; 3]%Z, mkPr ts 5).
Proof. vm_compute. reflexivity. Qed.
Example C92_example_type : let ts := toks_of (s2l "[1 2 3.0]") in exists m,
  parse_one_or_list parse_int "int" (mkPr ts 0) = Done (Err (EStr (PPos (mkPos 1 6) :: m)), mkPr ts 3) /\
  exists r, one_error int_item int_error "int" ts (EStr (PPos (mkPos 1 6) :: m)) r.
Proof.
  eexists. split; [vm_compute; reflexivity|]. eexists. vm_compute. apply one_list.
  eapply lie_close with (vs := [1; 2]%Z); [|congruence]. econstructor; [|apply ine_other; congruence].
  eapply it_more; [constructor|]. apply it_one. constructor.
Qed.
Example C92_example_empty : let ts := toks_of (s2l "[]") in exists m,
  parse_one_or_list parse_int "int" (mkPr ts 0) = Done (Err (EStr m), mkPr ts 1).
Proof. eexists. vm_compute. reflexivity. Qed.
Example C92_example_bool : let ts := toks_of (s2l "[""true"" ""false"" ""maybe""]") in exists m,
  parse_one_or_list parse_bool "bool" (mkPr ts 0) = Done (Err (EStr (PPos (mkPos 1 17) :: m)), mkPr ts 3).
Proof. eexists. vm_compute. reflexivity. Qed.
Example C92_example_pair : let ts := toks_of (s2l "[1 2.0 3]") in exists m,
  parse_one_or_list (parse_point2f fo_sym) "point2f" (mkPr ts 0) = Done (Err (EStr (PPos (mkPos 1 8) :: m)), mkPr ts 3).
Proof. eexists. vm_compute. reflexivity. Qed.
Example C92_example_back : let ts := toks_of (s2l "[1 2]") in exists m,
  parse_list_of_n (parse_float fo_sym) 3 "float" (mkPr ts 0) = Done (Err (EStr m), mkPr ts 1).
Proof. eexists. vm_compute. reflexivity. Qed.

(** ** C93: a spectrum, and a parameter, are read exactly as specified, and fail with exactly the specified error *)
Theorem C93_spectrum : forall F (fo : FloatOps F), behaves (parse_spectrum fo) (spectrum_item fo) (spectrum_error fo).
Proof. intros F fo. exact (spectrum_behaves fo). Qed.
Print Assumptions C93_spectrum.
Theorem C93_param : forall F (fo : FloatOps F) ps, behaves (parse_param_list fo ps)
  (fun s ps' r => exists i, param fo s i r /\ ps' = filed ps i) (param_error fo).
Proof. intros F fo. exact (param_behaves fo). Qed.
Print Assumptions C93_param.
Example C93_example_odd : let ts := toks_of (s2l "[1 2 3]") in exists m,
  parse_spectrum fo_sym (mkPr ts 0) = Done (Err (EStr (PPos (mkPos 1 1) :: m)), mkPr ts 5) /\
  exists r, spectrum_error fo_sym ts (EStr (PPos (mkPos 1 1) :: m)) r.
Proof.
  eexists. split; [vm_compute; reflexivity|]. eexists. vm_compute.
  eapply spe_odd with (l := [SInt 1; SInt 2; SInt 3]%Z); [|reflexivity].
  eapply br. eapply it_more; [constructor|]. eapply it_more; [constructor|]. apply it_one. constructor.
Qed.
Example C93_example_param : let ts := toks_of (s2l """float fov"" [30]") in exists ps,
  parse_param_list fo_sym ps_empty (mkPr ts 0) = Done (Ok ps, mkPr ts 4) /\
  ps_floats ps = [mkParam (s2l "fov") (mkPos 1 1) [SInt 30]].
Proof. eexists. split; vm_compute; reflexivity. Qed.
Example C93_example_type : let ts := toks_of (s2l """flaot fov"" [30]") in
  parse_param_list fo_sym ps_empty (mkPr ts 0) =
    Done (Err (EStr [PPos (mkPos 1 1); PText " parse_param_list(): expecting a type but got "; PStr (s2l "flaot")]), mkPr ts 0).
Proof. vm_compute. reflexivity. Qed.
