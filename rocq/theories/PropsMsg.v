(** Property theorems about the length of error messages: C132. Nothing but statements, examples and [Print Assumptions]. *)
From Verif Require Import Base TokModel ParModel RenderModel PropsLexLemmas MsgProofs.

(** ** C132: an error message is at most proportional to the text *)
Theorem C132_length : forall F (fo : FloatOps F) (dd : DebugOps F) k w,
  (forall c, length (dbg_char dd c) <= k) -> (forall x, length (dbg_float dd x) <= w) ->
  forall cc, cc_ok cc -> forall chk input e, parse fo cc chk input = Done (Err e) ->
  length (fmt_error dd e) <= (k + 2) * length input + w + 140.
Proof. exact @message_length. Qed.
Print Assumptions C132_length.
(** No bound holds for all texts: names are shown in full. *)
Theorem C132_grows : forall F (fo : FloatOps F) (dd : DebugOps F) chk n, exists input e,
  length input = n + 1 /\ parse fo cc_ascii chk input = Done (Err e) /\ n + 1 <= length (fmt_error dd e).
Proof. exact names_grow. Qed.
Print Assumptions C132_grows.
Example C132_example : let dd := mkDO sfloat (fun c => [c]) (fun _ => s2l "0.5") in
  (forall c, length (dbg_char dd c) <= 1) /\ (forall x, length (dbg_float dd x) <= 3) /\
  exists e, parse fo_sym cc_ascii true (s2l "Film [ 1.5") = Done (Err e) /\
    fmt_error dd e = s2l "(1, 6) parse_string(): expected string but got LBracket".
Proof.
  cbv zeta. split; [intros c; cbn; lia|]. split; [intros x; cbn; lia|]. eexists. split; vm_compute; reflexivity.
Qed.
