(** Property theorems about what the parser does not look at: C110. Nothing but statements, examples and [Print Assumptions]. *)
From Verif Require Import Base TokModel ParModel SceneSpec LikeSpec LikeProofs LikeThms.

(** ** C110: places, numbers, names and other strings are only carried along *)
(** However places, numbers, strings and names of parameters are replaced, the result is the same but for the same
    replacements, as long as integers used as floats are replaced accordingly, and strings keep being "true", "false", or a
    parameter header of the same type. *)
Theorem C110_alike : forall F G (fo : FloatOps F) (go : FloatOps G) (Rp : Pos -> Pos -> Prop) (Ri : Z -> Z -> Prop)
    (Rf : F -> G -> Prop) (Rs Rn : str -> str -> Prop),
  (forall i j, Ri i j -> Rf (f_of_isize fo i) (f_of_isize go j)) -> (forall s t, Rs s t -> exchangeable Rn s t) ->
  forall ts ts', Forall2 (like_tok Rp Ri Rf Rs) ts ts' ->
  like_outcome Rp Ri Rf Rs Rn (parse_tokens fo ts) (parse_tokens go ts').
Proof. intros F G. exact parse_tokens_like. Qed.
Print Assumptions C110_alike.
Theorem C110_texts : forall F G (fo : FloatOps F) (go : FloatOps G) cc cc' chk chk' (Rp : Pos -> Pos -> Prop) (Ri : Z -> Z -> Prop)
    (Rf : F -> G -> Prop) (Rs Rn : str -> str -> Prop) input input' ts ts',
  (forall i j, Ri i j -> Rf (f_of_isize fo i) (f_of_isize go j)) -> (forall s t, Rs s t -> exchangeable Rn s t) ->
  tokenize fo cc chk input = Done (Ok ts) -> tokenize go cc' chk' input' = Done (Ok ts') -> Forall2 (like_tok Rp Ri Rf Rs) ts ts' ->
  like_outcome Rp Ri Rf Rs Rn (parse fo cc chk input) (parse go cc' chk' input').
Proof. intros F G. exact texts_like. Qed.
Print Assumptions C110_texts.
(** No number and no place decides anything. *)
Theorem C110_numbers : forall F G (fo : FloatOps F) (go : FloatOps G) ts ts', Forall2 (like_tok any any any eq) ts ts' ->
  like_outcome any any any eq eq (parse_tokens fo ts) (parse_tokens go ts').
Proof. intros F G. exact numbers_do_not_matter. Qed.
Print Assumptions C110_numbers.
(** Names of shapes, materials, cameras and so on, files and string values. *)
Theorem C110_names : forall F (fo : FloatOps F) ts ts',
  Forall2 (like_tok eq eq eq (fun s t => s = t \/ plain_string s /\ plain_string t)) ts ts' ->
  like_outcome eq eq eq (fun s t => s = t \/ plain_string s /\ plain_string t) eq (parse_tokens fo ts) (parse_tokens fo ts').
Proof. intros F. exact names_do_not_matter. Qed.
Print Assumptions C110_names.
(** Names of parameters. *)
Theorem C110_parameters : forall F (fo : FloatOps F) ts ts',
  Forall2 (like_tok eq eq eq (fun s t => s = t \/ exists ty n n', header s ty n /\ header t ty n')) ts ts' ->
  like_outcome eq eq eq (fun s t => s = t \/ exists ty n n', header s ty n /\ header t ty n') any (parse_tokens fo ts) (parse_tokens fo ts').
Proof. intros F. exact parameter_names_do_not_matter. Qed.
Print Assumptions C110_parameters.
(** Being alike includes that both are accepted or neither. *)
Theorem C110_accepted : forall F Rp Ri (Rf : F -> F -> Prop) Rs Rn x y, like_outcome Rp Ri Rf Rs Rn x y ->
  ((exists a, x = Done (Ok a)) <-> (exists b, y = Done (Ok b))).
Proof. intros F. exact accepted_alike. Qed.
Print Assumptions C110_accepted.
Definition like_a : str := s2l "Scale 1 2 3 WorldBegin Shape ""sphere"" ""float radius"" 2 WorldEnd".
Definition like_c : str := s2l "Scale -7 7 7 WorldBegin
 Shape ""sphere"" ""float radius"" 1000 WorldEnd".
Example C110_example : exists ts ts', tokenize fo_sym cc_ascii true like_a = Done (Ok ts) /\ tokenize fo_sym cc_ascii true like_c = Done (Ok ts') /\
  Forall2 (like_tok any any any eq) ts ts' /\ ts <> ts' /\ exists a, parse_tokens fo_sym ts = Done (Ok a).
Proof.
  do 2 eexists. split; [vm_compute; reflexivity|]. split; [vm_compute; reflexivity|].
  split; [repeat constructor|]. split; [discriminate|]. eexists. vm_compute. reflexivity.
Qed.
(** Exchanging a list in brackets for one value is something else, and so is a string that becomes a header. *)
Example C110_other : plain_string (s2l "sphere") /\ plain_string (s2l "a cone here") /\ header (s2l "float radius") (s2l "float") (s2l "radius") /\
  ~ plain_string (s2l "float radius").
Proof.
  assert (H : header (s2l "float radius") (s2l "float") (s2l "radius")) by (apply ParProofs.split_header; vm_compute; reflexivity).
  split; [|split; [|split; [exact H|intros (_ & _ & N); exact (N _ _ H)]]].
  all: split; [discriminate|]; split; [discriminate|]; intros ty n X; apply ParProofs.header_split in X; vm_compute in X; discriminate.
Qed.
