(** Property theorems about the part of the input that is looked at: C131. Nothing but statements, examples and
    [Print Assumptions]. *)
From Verif Require Import Base TokModel ParModel TraceModel LexSpec SeenSpec PropsSceneLemmas SeenThms.

(** ** C131: what is not looked at does not matter *)
Theorem C131_text : forall F (fo : FloatOps F) cc chk input input' t t' r l,
  lf_text input t -> lf_text input' t' -> length t' = length t ->
  tokenize_t fo cc chk input = Done (r, l) -> agree t t' l -> tokenize_t fo cc chk input' = Done (r, l).
Proof. intros F fo cc chk. exact (text_unseen fo cc chk). Qed.
Print Assumptions C131_text.
(** What comes before something looked at is looked at, and a text without lexical error is looked at altogether. *)
Theorem C131_text_gaps : forall F (fo : FloatOps F) cc chk input r l, tokenize_t fo cc chk input = Done (r, l) -> no_gap l.
Proof. intros F fo cc chk. exact (text_no_gap fo cc chk). Qed.
Print Assumptions C131_text_gaps.
Theorem C131_text_all : forall F (fo : FloatOps F) cc chk input t ts l, lf_text input t ->
  tokenize_t fo cc chk input = Done (Ok ts, l) -> forall i, i < length t -> In i l.
Proof. intros F fo cc chk. exact (text_all fo cc chk). Qed.
Print Assumptions C131_text_all.
Theorem C131_tokens : forall F (fo : FloatOps F) toks toks' r l, length toks' = length toks ->
  parse_tokens_t fo toks = Done (r, l) -> agree toks toks' l -> parse_tokens_t fo toks' = Done (r, l).
Proof. intros F fo. exact (tokens_unseen fo). Qed.
Print Assumptions C131_tokens.
Theorem C131_tokens_gaps : forall F (fo : FloatOps F) toks r l, parse_tokens_t fo toks = Done (r, l) -> no_gap l.
Proof. intros F fo. exact (tokens_no_gap fo). Qed.
Print Assumptions C131_tokens_gaps.
(** From the characters to the scene; where there is no lexical error, the second record is that of parsing the tokens. *)
Theorem C131_parse : forall F (fo : FloatOps F) cc chk input input' t t' r l l',
  lf_text input t -> lf_text input' t' -> length t' = length t ->
  parse_t fo cc chk input = Done (r, l, l') -> agree t t' l -> parse_t fo cc chk input' = Done (r, l, l').
Proof. intros F fo cc chk. exact (all_unseen fo cc chk). Qed.
Print Assumptions C131_parse.
Theorem C131_parse_tokens : forall F (fo : FloatOps F) cc chk input toks r l l',
  parse_t fo cc chk input = Done (r, l, l') -> tokenize fo cc chk input = Done (Ok toks) -> parse_tokens_t fo toks = Done (r, l').
Proof. intros F fo cc chk. exact (all_tokens fo cc chk). Qed.
Print Assumptions C131_parse_tokens.
(** The end of the text is noticed without a look: the condition on the lengths is needed. *)
Theorem C131_longer_refuted : exists input input' r l, no_pair input /\ no_pair input' /\
  tokenize_t fo_sym cc_ascii true input = Done (r, l) /\ agree input input' l /\
  tokenize_t fo_sym cc_ascii true input' <> Done (r, l).
Proof. exact longer_refuted. Qed.
Print Assumptions C131_longer_refuted.

(** After the error at the third character the rest of the text can be anything. *)
Example C131_example_text : exists r l, lf_text (s2l "a % b c") (s2l "a % b c") /\
  tokenize_t fo_sym cc_ascii true (s2l "a % b c") = Done (Err r, l) /\ agree (s2l "a % b c") (s2l "a % ""#]") l.
Proof. exact text_example. Qed.
(** So can the tokens after the one that closes the world block. *)
Example C131_example_tokens : exists r l,
  parse_tokens_t fo_sym (toks_of (s2l "WorldBegin Include ""a"" WorldEnd [ 1")) = Done (Ok r, l) /\
  agree (toks_of (s2l "WorldBegin Include ""a"" WorldEnd [ 1")) (toks_of (s2l "WorldBegin Include ""a"" WorldEnd Film Film")) l.
Proof. exact tokens_example. Qed.
