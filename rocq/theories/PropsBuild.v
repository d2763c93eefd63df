(** Property theorems about the float type and the character tables the program is built with: C94 and C95. Nothing but
    statements, examples and [Print Assumptions]. *)
From Verif Require Import Base TokModel ParModel SceneSpec SceneObs BuildSpec BuildProofs.

(** ** C94: the f32 and the f64 build differ in nothing but the floats *)
Theorem C94_same_shape : forall F G (fo : FloatOps F) (go : FloatOps G) cc chk input,
  shape (parse fo cc chk input) = shape (parse go cc chk input).
Proof. intros F G. exact same_shape. Qed.
Print Assumptions C94_same_shape.
(** Every float of the result is computed by the same operations on the same literals. *)
Theorem C94_same_expressions : forall F (fo : FloatOps F) cc chk input,
  parse fo cc chk input = map_outcome (eval fo) (map_scene (eval fo)) (parse fo_sym cc chk input).
Proof. intros F. exact parse_eval. Qed.
Print Assumptions C94_same_expressions.
Theorem C94_same_tokens : forall F (fo : FloatOps F) cc chk input,
  tokenize fo cc chk input = map_outcome (eval fo) (map (map_tok (eval fo))) (tokenize fo_sym cc chk input).
Proof. intros F. exact tokenize_eval. Qed.
Print Assumptions C94_same_tokens.
Example C94_example : parse fo_sym cc_ascii true (s2l "Scale 1 -2.5 3e-1 WorldBegin WorldEnd") =
  Done (Ok ([PScale (mkPos 1 1) (mkV3 (SInt 1) (SDec true 25 1) (SMul (SDec false 3 0) (SPow10 (SInt (-1)))))],
            DWorld (mkPos 1 19) [])).
Proof. vm_compute. reflexivity. Qed.
Example C94_example_shape : exists a b, parse fo_sym cc_ascii true (s2l "Scale 1 1 1 WorldBegin WorldEnd") = Done (Ok a) /\
  parse fo_sym cc_ascii true (s2l "Scale 1 1 2 WorldBegin WorldEnd") = Done (Ok b) /\ a <> b /\
  shape (Done (Ok a)) = shape (Done (Ok b)).
Proof.
  do 2 eexists. split; [vm_compute; reflexivity|]. split; [vm_compute; reflexivity|]. split; [congruence|reflexivity].
Qed.

(** ** C95: of the tables of numeric and alphabetic characters only the entries of the characters in the text matter *)
Theorem C95_tables : forall F (fo : FloatOps F) cc cc' chk input, agree_on cc cc' input ->
  parse fo cc chk input = parse fo cc' chk input.
Proof. intros F. exact parse_local. Qed.
Print Assumptions C95_tables.
(** An ASCII text is parsed the same with the tables of every version of Unicode. *)
Theorem C95_ascii : forall F (fo : FloatOps F) cc chk input, cc_ok cc -> Forall (fun c => (c < 128)%N) input ->
  parse fo cc chk input = parse fo cc_ascii chk input.
Proof. intros F. exact parse_ascii. Qed.
Print Assumptions C95_ascii.
(** Tables that differ outside ASCII. *)
Example C95_example : let cc := mkCC (fun c => is_ascii_digit c || (c =? 1635)%N) (fun c => is_ascii_alpha c || (c =? 233)%N) in
  cc_ok cc /\ agree_on cc cc_ascii (s2l "WorldBegin") /\ ~ agree_on cc cc_ascii [233%N].
Proof.
  cbv zeta. split; [constructor; cbn [is_numeric is_alphabetic]; intros c Hc|split].
  - destruct (N.eqb_spec c 1635); [subst; discriminate|]. now rewrite Bool.orb_false_r.
  - destruct (N.eqb_spec c 233); [subst; discriminate|]. now rewrite Bool.orb_false_r.
  - destruct (N.eqb_spec c 1635) as [->|]; [discriminate|]. rewrite Bool.orb_false_r. destruct (is_ascii_digit c) eqn:E; [|reflexivity].
    unfold is_ascii_digit, is_whitespace, c_0, c_9 in *. apply andb_prop in E as [E1 E2]. apply N.leb_le in E1, E2.
    exfalso. rewrite !Bool.orb_true_iff, !Bool.andb_true_iff, !N.leb_le, !N.eqb_eq in Hc. lia.
  - destruct (N.eqb_spec c 233) as [->|]; [discriminate|]. rewrite Bool.orb_false_r. destruct (is_ascii_alpha c) eqn:E; [|reflexivity].
    unfold is_ascii_alpha, is_whitespace in *. exfalso.
    rewrite !Bool.orb_true_iff, !Bool.andb_true_iff, !N.leb_le in E.
    rewrite !Bool.orb_true_iff, !Bool.andb_true_iff, !N.leb_le, !N.eqb_eq in Hc. lia.
  - unfold agree_on. repeat constructor.
  - intros H. inversion H as [|? ? [_ E] _]; subst. discriminate E.
Qed.
