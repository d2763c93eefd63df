(** Property theorems about how often the input is looked at: C89 to C91. Nothing but statements, examples and
    [Print Assumptions]. *)
From Verif Require Import Base TokModel ParModel TraceModel LexSpec SceneSpec SceneObs PrintSpec LooksSpec PropsLexLemmas PropsSceneLemmas LooksThms.

(** ** C89: the tokenizer looks at every character at most five times *)
(** The program that keeps a record computes what the tokenizer computes. *)
Theorem C89_same : forall F (fo : FloatOps F) cc chk input,
  tokenize fo cc chk input =
  match tokenize_t fo cc chk input with Done (r, _) => Done r | Panic => Panic | OutOfFuel => OutOfFuel end.
Proof. intros F fo cc chk. exact (tokenize_same fo cc chk). Qed.
Print Assumptions C89_same.
Theorem C89_looks : forall F (fo : FloatOps F) cc chk input r l, tokenize_t fo cc chk input = Done (r, l) ->
  (forall i, looks_at l i <= 5) /\ Forall (fun i => i <= length input) l /\ length l <= 5 * (length input + 1).
Proof. intros F fo cc chk. exact (tokenize_looks_input fo cc chk). Qed.
Print Assumptions C89_looks.
(** No more tokens than characters, and no more characters in the tokens than in the input. *)
Theorem C89_tokens : forall F (fo : FloatOps F) cc chk input ts, tokenize fo cc chk input = Done (Ok ts) ->
  length ts <= length input /\ list_sum (map text ts) <= length input.
Proof. intros F fo cc chk. exact (tokenize_small fo cc chk). Qed.
Print Assumptions C89_tokens.
Example C89_example_five : exists r l, tokenize_t fo_sym cc_ascii true (s2l " 1") = Done (Ok r, l) /\ looks_at l 1 = 5.
Proof. do 2 eexists. split; vm_compute; reflexivity. Qed.
Example C89_example_end : exists r l, tokenize_t fo_sym cc_ascii true (s2l "a ") = Done (Ok r, l) /\ rev l = [0; 0; 1; 1; 1; 1; 2; 2].
Proof. do 2 eexists. split; vm_compute; reflexivity. Qed.

(** ** C90: the parser looks at every token at most six times, unless it closes a block *)
Theorem C90_same : forall F (fo : FloatOps F) toks,
  parse_tokens fo toks =
  match parse_tokens_t fo toks with Done (r, _) => Done r | Panic => Panic | OutOfFuel => OutOfFuel end.
Proof. intros F fo. exact (tokens_same fo). Qed.
Print Assumptions C90_same.
Theorem C90_looks : forall F (fo : FloatOps F) toks r l, parse_tokens_t fo toks = Done (r, l) ->
  length l <= 6 * length toks + 10 /\ Forall (fun i => i <= length toks) l /\
  forall i, (forall t, nth_error toks i = Some t -> ~ closing t) -> looks_at l i <= 6.
Proof. intros F fo. exact (tokens_looks fo). Qed.
Print Assumptions C90_looks.
(** A token that closes a block is looked at once for every block that is open: no bound holds for it. *)
Theorem C90_closing_unbounded : forall F (fo : FloatOps F) K, exists x l,
  parse_tokens_t fo (kw "WorldBegin" :: repeat (kw "AttributeBegin") K ++ [kw "WorldEnd"]) = Done (Ok x, l) /\
  K + 1 <= looks_at l (K + 1).
Proof. intros F fo. exact (deep_looks fo). Qed.
Print Assumptions C90_closing_unbounded.
Example C90_example_six : exists r l,
  parse_tokens_t fo_sym (toks_of (s2l "WorldBegin Material ""a"" ""float x"" [ 1 Material")) = Done (r, l) /\ looks_at l 6 = 6.
Proof. do 2 eexists. split; vm_compute; reflexivity. Qed.

(** ** C91: parsing looks at the input, and copies of it, linearly often *)
Theorem C91_same : forall F (fo : FloatOps F) cc chk input,
  parse fo cc chk input =
  match parse_t fo cc chk input with Done (r, _, _) => Done r | Panic => Panic | OutOfFuel => OutOfFuel end.
Proof. intros F fo. exact (parse_same fo). Qed.
Print Assumptions C91_same.
Theorem C91_linear : forall F (fo : FloatOps F) cc chk input r l l', parse_t fo cc chk input = Done (r, l, l') ->
  length l <= 5 * (length input + 1) /\ length l' <= 6 * length input + 10 /\
  forall toks, tokenize fo cc chk input = Done (Ok toks) -> text_seen toks l' <= 78 * length input + 120.
Proof. intros F fo. exact (parse_looks fo). Qed.
Print Assumptions C91_linear.
Example C91_example : exists r l l', parse_t fo_sym cc_ascii true (s2l "WorldBegin Material ""a"" WorldEnd") = Done (Ok r, l, l') /\
  (length l, length l') = (71, 12).
Proof. do 3 eexists. split; vm_compute; reflexivity. Qed.
