(** Property theorems about the texts of error messages: C81. Nothing but statements, examples and [Print Assumptions]. *)
From Verif Require Import Base TokModel ParModel LexSpec RenderModel RenderSpec PropsLexLemmas RenderProofs.

(** ** C81: error messages as the user sees them *)
(** Every displayed error is one of eight fixed texts or shows the row and column of a place of the text. *)
Theorem C81_display : forall F (fo : FloatOps F) dd cc, cc_ok cc -> forall chk input e,
  parse fo cc chk input = Done (Err e) ->
  In (fmt_error dd e) placeless \/
  exists p w rest, (exists a b, lf_text input (a ++ b) /\ p = pos_of a) /\ place_text w p /\
    (fmt_error dd e = w ++ s2l " " ++ rest \/
     fmt_error dd e = s2l many_prefix ++ w ++ s2l " parse_float(): expected float but got " ++ rest).
Proof. intros F fo dd. exact (display_form fo dd). Qed.
Print Assumptions C81_display.
(** Reading the position off the displayed text gives a place of the text. *)
Theorem C81_read_back : forall F (fo : FloatOps F) dd cc, cc_ok cc -> forall chk input e pre w p rest,
  parse fo cc chk input = Done (Err e) -> pre = [] \/ pre = s2l many_prefix ->
  place_text w p -> fmt_error dd e = pre ++ w ++ rest -> exists a b, lf_text input (a ++ b) /\ p = pos_of a.
Proof. intros F fo dd. exact (display_place fo dd). Qed.
Print Assumptions C81_read_back.
(** A text shows at most one position at its start. *)
Theorem C81_one_position : forall w w' p p' x y,
  place_text w p -> place_text w' p' -> w ++ x = w' ++ y -> p = p' /\ w = w' /\ x = y.
Proof. exact place_inj. Qed.
Print Assumptions C81_one_position.
(** Different errors, of the same text or of different ones, are displayed differently; the end of input is not displayed
    like any message. *)
Theorem C81_distinct : forall F (fo : FloatOps F) dd, debug_ok dd -> forall cc, cc_ok cc -> forall chk chk' input input' e e',
  parse fo cc chk input = Done (Err e) -> parse fo cc chk' input' = Done (Err e') ->
  fmt_error dd e = fmt_error dd e' -> e = e'.
Proof. intros F fo dd Hd. exact (display_distinct fo dd Hd). Qed.
Print Assumptions C81_distinct.
(** The text of an error, piece by piece; numbers are in decimal without leading zeros. *)
Theorem C81_text : forall F (dd : DebugOps F) e w, error_text dd w e <-> w = fmt_error dd e.
Proof. intros F dd e w. exact (error_text_iff dd w e). Qed.
Print Assumptions C81_text.
Example C81_example_ok : debug_ok dbg_sym /\ cc_ok cc_ascii.
Proof. split; [exact dbg_sym_ok|exact cc_ascii_ok]. Qed.
Example C81_example_char : exists e, parse fo_sym cc_ascii true (s2l "Scale 1
 1 ; 1") = Done (Err e) /\ fmt_error dbg_sym e = s2l "(2, 4) tokenize_one(): unexpected char ';'".
Proof. eexists. split; vm_compute; reflexivity. Qed.
Example C81_example_nested : exists e, parse fo_sym cc_ascii true (s2l "Translate ""a\\b"" 2 3") = Done (Err e) /\
  fmt_error dbg_sym e = s2l "parse_many_floats(): error while processing floats:
  (1, 11) parse_float(): expected float but got Str(""a\\b"")".
Proof. eexists. split; vm_compute; reflexivity. Qed.
Example C81_example_count : exists e, parse fo_sym cc_ascii true (s2l "Identity Scale 1 2 WorldBegin WorldEnd") = Done (Err e) /\
  fmt_error dbg_sym e = s2l "(1, 10) parse_predirective(): Scale expects 3 floats but was given 2".
Proof. eexists. split; vm_compute; reflexivity. Qed.
Example C81_example_int : exists e, parse fo_sym cc_ascii true (s2l "WorldBegin Shape ""disk"" -17 WorldEnd") = Done (Err e) /\
  fmt_error dbg_sym e = s2l "(1, 25) parse_directives(): expected identifier or block close but got Int(-17)".
Proof. eexists. split; vm_compute; reflexivity. Qed.
Example C81_example_eof : exists e, parse fo_sym cc_ascii true (s2l "WorldBegin") = Done (Err e) /\ fmt_error dbg_sym e = s2l "EOF".
Proof. eexists. split; vm_compute; reflexivity. Qed.
