(** Property theorems about the order of parameters: C119. Nothing but statements, examples and [Print Assumptions]. *)
From Verif Require Import Base TokModel ParModel LexSpec SceneSpec SceneObs ReorderSpec ReorderProofs.

(** ** C119: parameters of different types may change places *)
(** However parameters of different types change places, in however many directives, the scene is exactly the same. If the
    tokens are rejected, so are the others. *)
Theorem C119_order : forall F (fo : FloatOps F) s s', rearranged fo s s' -> same_result (parse_tokens fo s) (parse_tokens fo s').
Proof. intros F. exact rearranged_parse. Qed.
Print Assumptions C119_order.
(** Two neighbours, anywhere. *)
Theorem C119_swap : forall F (fo : FloatOps F) a p id n h c l i j ci cj b,
  In (id, n) takes_params -> length h = n -> Forall a_string h -> listing fo c l ->
  listing fo ci [i] -> listing fo cj [j] -> kind_of (pi_val i) <> kind_of (pi_val j) ->
  same_result (parse_tokens fo (a ++ mkTok p (TIdent id) :: h ++ c ++ ci ++ cj ++ b))
              (parse_tokens fo (a ++ mkTok p (TIdent id) :: h ++ c ++ cj ++ ci ++ b)).
Proof. intros F. exact swap_two. Qed.
Print Assumptions C119_swap.
(** Texts: the places in the scene change with the text, and nothing else. *)
Theorem C119_texts : forall F (fo : FloatOps F) cc cc' chk chk' input input' s s' u,
  tokenize fo cc chk input = Done (Ok s) -> tokenize fo cc' chk' input' = Done (Ok s') ->
  rearranged fo s u -> kinds s' = kinds u -> same_outcome (parse fo cc' chk' input') (parse fo cc chk input).
Proof. intros F. exact rearranged_texts. Qed.
Print Assumptions C119_texts.
(** No other change of the list goes unnoticed: two lists of parameters give the same scene exactly if they are equal but for
    such changes of places. *)
Theorem C119_exactly : forall F (fo : FloatOps F) p q r t ty c c' l l', listing fo c l -> listing fo c' l' ->
  (parse_tokens fo (one_shape p q r t ty c) = parse_tokens fo (one_shape p q r t ty c') <-> reorder l l').
Proof. intros F. exact one_shape_iff. Qed.
Print Assumptions C119_exactly.

Definition ro_p : Pos := mkPos 1 1.
Definition ro_int : list (Token sfloat) := [mkTok ro_p (TStr (s2l "integer n")); mkTok ro_p (TInt 3)].
Definition ro_bool : list (Token sfloat) := [mkTok ro_p (TStr (s2l "bool flag")); mkTok ro_p TLBracket; mkTok ro_p (TStr (s2l "true")); mkTok ro_p TRBracket].
Definition ro_int2 : list (Token sfloat) := [mkTok ro_p (TStr (s2l "integer m")); mkTok ro_p (TInt 4)].
Example C119_listing : listing fo_sym ro_int [mkPI (s2l "n") ro_p (VInts [3%Z])] /\ listing fo_sym ro_bool [mkPI (s2l "flag") ro_p (VBools [true])] /\
  listing fo_sym ro_int2 [mkPI (s2l "m") ro_p (VInts [4%Z])].
Proof.
  repeat split; intros r; (eapply sp_cons; [|apply sp_nil]);
    (eapply pa; [apply ParProofs.split_header; vm_compute; reflexivity|]).
  - apply va_int, ol_one. constructor.
  - apply va_bool, ol_list. apply (br _ _ _ _ ro_p). apply it_one. constructor.
  - apply va_int, ol_one. constructor.
Qed.
Example C119_example : rearranged fo_sym (one_shape ro_p ro_p ro_p ro_p (s2l "cone") (ro_int ++ ro_bool)) (one_shape ro_p ro_p ro_p ro_p (s2l "cone") (ro_bool ++ ro_int)) /\
  exists x, parse_tokens fo_sym (one_shape ro_p ro_p ro_p ro_p (s2l "cone") (ro_int ++ ro_bool)) = Done (Ok x).
Proof.
  destruct C119_listing as (Hi & Hb & _). split; [|eexists; vm_compute; reflexivity]. unfold one_shape. apply rg_tok.
  apply (rg_params fo_sym _ _ 1 [mkTok ro_p (TStr (s2l "cone"))] (ro_int ++ ro_bool) (ro_bool ++ ro_int)
    ([mkPI (s2l "n") ro_p (VInts [3%Z])] ++ [mkPI (s2l "flag") ro_p (VBools [true])])
    ([mkPI (s2l "flag") ro_p (VBools [true])] ++ [mkPI (s2l "n") ro_p (VInts [3%Z])])).
  - right; right; left. reflexivity.
  - reflexivity.
  - repeat constructor.
  - now apply listing_app.
  - now apply listing_app.
  - now apply ro_swap.
  - apply R_refl.
Qed.
Definition ro_text1 : str := s2l "WorldBegin Shape ""cone"" ""integer n"" 3 ""float x"" 2.5 WorldEnd".
Definition ro_text2 : str := s2l "WorldBegin Shape ""cone"" ""float x"" 2.5
  ""integer n"" 3 WorldEnd".
Example C119_text_example : exists s s' u, tokenize fo_sym cc_ascii true ro_text1 = Done (Ok s) /\ tokenize fo_sym cc_ascii true ro_text2 = Done (Ok s') /\
  rearranged fo_sym s u /\ kinds s' = kinds u /\ s <> u.
Proof.
  eexists. eexists. exists [mkTok (mkPos 1 1) (TIdent (s2l "WorldBegin")); mkTok (mkPos 1 12) (TIdent (s2l "Shape")); mkTok (mkPos 1 18) (TStr (s2l "cone"));
    mkTok (mkPos 1 39) (TStr (s2l "float x")); mkTok (mkPos 1 49) (TFloat (SDec false 25 1));
    mkTok (mkPos 1 25) (TStr (s2l "integer n")); mkTok (mkPos 1 37) (TInt 3); mkTok (mkPos 1 53) (TIdent (s2l "WorldEnd"))].
  split; [vm_compute; reflexivity|]. split; [vm_compute; reflexivity|]. split; [|split; [vm_compute; reflexivity|discriminate]].
  apply rg_tok.
  apply (rg_params fo_sym _ _ 1 [mkTok (mkPos 1 18) (TStr (s2l "cone"))]
    ([mkTok (mkPos 1 25) (TStr (s2l "integer n")); mkTok (mkPos 1 37) (TInt 3)] ++ [mkTok (mkPos 1 39) (TStr (s2l "float x")); mkTok (mkPos 1 49) (TFloat (SDec false 25 1))])
    ([mkTok (mkPos 1 39) (TStr (s2l "float x")); mkTok (mkPos 1 49) (TFloat (SDec false 25 1))] ++ [mkTok (mkPos 1 25) (TStr (s2l "integer n")); mkTok (mkPos 1 37) (TInt 3)])
    ([mkPI (s2l "n") (mkPos 1 25) (VInts [3%Z])] ++ [mkPI (s2l "x") (mkPos 1 39) (VFloats [SDec false 25 1])])
    ([mkPI (s2l "x") (mkPos 1 39) (VFloats [SDec false 25 1])] ++ [mkPI (s2l "n") (mkPos 1 25) (VInts [3%Z])])).
  - right; right; left. reflexivity.
  - reflexivity.
  - repeat constructor.
  - intros r. eapply sp_cons; [eapply pa; [apply ParProofs.split_header; vm_compute; reflexivity|apply va_int, ol_one; constructor]|].
    eapply sp_cons; [eapply pa; [apply ParProofs.split_header; vm_compute; reflexivity|apply va_float, ol_one; constructor]|]. apply sp_nil.
  - intros r. eapply sp_cons; [eapply pa; [apply ParProofs.split_header; vm_compute; reflexivity|apply va_float, ol_one; constructor]|].
    eapply sp_cons; [eapply pa; [apply ParProofs.split_header; vm_compute; reflexivity|apply va_int, ol_one; constructor]|]. apply sp_nil.
  - now apply ro_swap.
  - apply R_refl.
Qed.
(** Parameters of the same type may not change places, even if their names differ. *)
Theorem C119_same_type_refuted : exists i j ci cj, listing fo_sym ci [i] /\ listing fo_sym cj [j] /\ pi_name i <> pi_name j /\
  parse_tokens fo_sym (one_shape ro_p ro_p ro_p ro_p (s2l "cone") (ci ++ cj)) <> parse_tokens fo_sym (one_shape ro_p ro_p ro_p ro_p (s2l "cone") (cj ++ ci)).
Proof.
  destruct C119_listing as (Hi & _ & Hj). do 4 eexists. split; [exact Hi|]. split; [exact Hj|]. split; [discriminate|]. vm_compute. discriminate.
Qed.
Print Assumptions C119_same_type_refuted.
(** What looks like two parameters need not be two: where a name is missing, the first header is the name. *)
Definition ro_str : list (Token sfloat) := [mkTok ro_p (TStr (s2l "string a")); mkTok ro_p (TStr (s2l "string b"))].
Definition ro_tex : list (Token sfloat) := [mkTok ro_p (TStr (s2l "texture c")); mkTok ro_p (TStr (s2l "bool d"))].
Theorem C119_anywhere_refuted : exists a b i j ci cj, listing fo_sym ci [i] /\ listing fo_sym cj [j] /\ kind_of (pi_val i) <> kind_of (pi_val j) /\
  (exists x, parse_tokens fo_sym (a ++ ci ++ cj ++ b) = Done (Ok x)) /\ (exists m, parse_tokens fo_sym (a ++ cj ++ ci ++ b) = Done (Err (EStr m))).
Proof.
  exists [mkTok ro_p (TIdent (s2l "WorldBegin")); mkTok ro_p (TIdent (s2l "Shape"))], [mkTok ro_p (TStr (s2l "true")); mkTok ro_p (TIdent (s2l "WorldEnd"))],
    (mkPI (s2l "a") ro_p (VStrings [s2l "string b"])), (mkPI (s2l "c") ro_p (VTexture (s2l "bool d"))), ro_str, ro_tex.
  split; [|split; [|split; [discriminate|split; eexists; vm_compute; reflexivity]]];
    intros r; (eapply sp_cons; [|apply sp_nil]); (eapply pa; [apply ParProofs.split_header; vm_compute; reflexivity|]).
  - apply va_string, ol_one. constructor.
  - apply va_texture. constructor.
Qed.
Print Assumptions C119_anywhere_refuted.
