(** Property theorems about the exact stack use: C96. Nothing but statements, examples and [Print Assumptions]. *)
From Verif Require Import Base TokModel ParModel LexSpec SceneSpec DepthModel StackSpec StackProofs.

(** ** C96: how much stack parsing takes *)
(** For every text there is a depth from which on the bounded parser ends like the unbounded one, and below which it overflows. *)
Theorem C96_threshold : forall F (fo : FloatOps F) cc, cc_ok cc -> forall chk input, exists k, k <= length input + 4 /\
  forall depth, parse_d fo cc chk depth input = if k <=? depth then parse fo cc chk input else OutOfFuel.
Proof. intros F fo cc Hcc. exact (parse_threshold fo cc Hcc). Qed.
Print Assumptions C96_threshold.
(** For a text that parses it is the larger of what its layout and exponents need and of the height of its blocks. *)
Theorem C96_exact : forall F (fo : FloatOps F) cc, cc_ok cc -> forall chk input x, parse fo cc chk input = Done (Ok x) ->
  exists k, lex_needs fo cc chk 0 (replace_crlf input) k /\
  forall depth, parse_d fo cc chk depth input = if Nat.max k (block_height (snd x)) <=? depth then Done (Ok x) else OutOfFuel.
Proof. intros F fo cc Hcc. exact (parse_exact fo cc Hcc). Qed.
Print Assumptions C96_exact.
Theorem C96_tokenizer : forall F (fo : FloatOps F) cc chk, cc_ok cc -> forall input k depth, lex_needs fo cc chk 0 (replace_crlf input) k ->
  tokenize_d fo cc chk depth input = if k <=? depth then tokenize fo cc chk input else OutOfFuel.
Proof. intros F fo cc chk Hcc. exact (tokenize_exact fo cc chk Hcc). Qed.
Print Assumptions C96_tokenizer.
Theorem C96_parser : forall F (fo : FloatOps F) s x depth, parse_tokens fo s = Done (Ok x) ->
  parse_tokens_d fo depth s = if block_height (snd x) <=? depth then Done (Ok x) else OutOfFuel.
Proof. intros F fo. exact (parse_tokens_exact fo). Qed.
Print Assumptions C96_parser.
(** Two comments and two runs of white space in front of the first token; height 2. *)
Example C96_example : exists x, parse fo_sym cc_ascii true (s2l "# a
 # b
  WorldBegin AttributeBegin AttributeEnd") = Done (Ok x) /\ block_height (snd x) = 2 /\
  parse_d fo_sym cc_ascii true 4 (s2l "# a
 # b
  WorldBegin AttributeBegin AttributeEnd") = Done (Ok x) /\
  parse_d fo_sym cc_ascii true 3 (s2l "# a
 # b
  WorldBegin AttributeBegin AttributeEnd") = OutOfFuel.
Proof. eexists. split; [vm_compute; reflexivity|]. repeat split; vm_compute; reflexivity. Qed.
(** One space, three exponents. *)
Example C96_needs : lex_needs fo_sym cc_ascii true 0 (s2l "a 1e1e0e0") 4.
Proof.
  apply (ln_token fo_sym cc_ascii true 0 (s2l "a") (TIdent (s2l "a")) (s2l " 1e1e0e0") 4).
  - apply lx_ident. exists 97%N, []. repeat split; constructor.
  - apply (ln_space fo_sym cc_ascii true 0 (s2l " ") (s2l "1e1e0e0") 4); [discriminate|repeat constructor|reflexivity|].
    apply (ln_token fo_sym cc_ascii true 1 (s2l "1e1e0e0") (TInt 10) [] 0); [|constructor]. apply lx_num.
    assert (D : forall c v rest, is_ascii_digit c = true -> dec_val [c] = v -> (0 <= v <= 9)%Z -> ends_number cc_ascii rest ->
      number fo_sym cc_ascii true [c] (TInt v) rest).
    { intros c v rest Hd <- Hv Hr. apply (nu_int fo_sym cc_ascii true [] false [c]); [constructor|constructor; [exact Hd|constructor]| |exact Hr].
      split; [discriminate|]. split; [constructor; [exact Hd|constructor]|]. split; [reflexivity|]. unfold fits. lia. }
    assert (E : forall c m text e v, is_ascii_digit c = true -> dec_val [c] = m -> (0 <= m <= 9)%Z ->
      number fo_sym cc_ascii true text (TInt e) [] -> (0 <= e)%Z -> int_exp true m e v ->
      number fo_sym cc_ascii true (c :: c_e :: text) (TInt v) []).
    { intros c m text e v Hd <- Hm Ht He Hv. apply (nu_int_exp fo_sym cc_ascii true [] false [c] (dec_val [c]) text e); auto.
      - constructor.
      - constructor; [exact Hd|constructor].
      - split; [discriminate|]. split; [constructor; [exact Hd|constructor]|]. split; [reflexivity|]. unfold fits. lia. }
    apply (E 49%N 1%Z (s2l "1e0e0") 1%Z); [reflexivity|reflexivity|lia| |lia|left; vm_compute; repeat split; discriminate].
    apply (E 49%N 1%Z (s2l "0e0") 0%Z); [reflexivity|reflexivity|lia| |lia|left; vm_compute; repeat split; discriminate].
    apply (E 48%N 0%Z (s2l "0") 0%Z); [reflexivity|reflexivity|lia| |lia|left; vm_compute; repeat split; discriminate].
    apply D; [reflexivity|reflexivity|lia|exact I].
Qed.
