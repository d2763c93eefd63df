(** Property theorems about texts: C01-C06, C08-C11, C27. Nothing but statements, examples and [Print Assumptions]. *)
From Coq Require Import Sorted.
From Verif Require Import Base TokModel ParModel LexSpec SceneSpec LexThms SimProofs TextThms PropsLexLemmas.

(** The examples use symbolic floats and the ASCII character classes. *)
Definition ex_scene : str :=
  s2l "Translate 1 2e1 -3.5 # move
WorldBegin Shape ""sphere"" ""float radius"" [0.5] WorldEnd".

(** ** C01: parsing always comes back *)
Theorem C01_parse_ends : forall F (fo : FloatOps F) cc, cc_ok cc -> forall chk input,
  (exists r, parse fo cc chk input = Done r) \/
  (parse fo cc chk input = Panic /\ chk = true /\ exists t, lf_text input t /\ lex_overflows fo cc t).
Proof. intros F fo cc Hcc. exact (parse_outcome fo cc Hcc). Qed.
Print Assumptions C01_parse_ends.
Example C01_example : cc_ok cc_ascii /\ exists x, parse fo_sym cc_ascii true ex_scene = Done (Ok x).
Proof. split; [exact cc_ascii_ok|]. eexists. vm_compute. reflexivity. Qed.

(** ** C02: the only panic is integer-exponent overflow, in checked builds *)
Theorem C02_panic_iff : forall F (fo : FloatOps F) cc, cc_ok cc -> forall chk input,
  parse fo cc chk input = Panic <-> chk = true /\ exists t, lf_text input t /\ lex_overflows fo cc t.
Proof. intros F fo cc Hcc. exact (parse_panic_iff fo cc Hcc). Qed.
Print Assumptions C02_panic_iff.
Theorem C02_no_e_no_panic : forall F (fo : FloatOps F) cc, cc_ok cc -> forall chk input,
  ~ In c_e input -> exists r, parse fo cc chk input = Done r.
Proof. intros F fo cc Hcc. exact (parse_no_e fo cc Hcc). Qed.
Print Assumptions C02_no_e_no_panic.
Theorem C02_release_no_panic : forall F (fo : FloatOps F) cc, cc_ok cc -> forall input,
  exists r, parse fo cc false input = Done r.
Proof. intros F fo cc Hcc. exact (parse_unchecked fo cc Hcc). Qed.
Print Assumptions C02_release_no_panic.
Example C02_example_panic : parse fo_sym cc_ascii true (s2l "Scale 1 1 1e19") = Panic.
Proof. vm_compute. reflexivity. Qed.
(** zero times an overflowing power of ten *)
Example C02_example_panic_zero : parse fo_sym cc_ascii true (s2l "Scale 1 1 0e20") = Panic.
Proof. vm_compute. reflexivity. Qed.
Example C02_example_no_e : ~ In c_e (s2l "Scal 1 [") /\ cc_ok cc_ascii.
Proof. split; [cbn; intuition discriminate|exact cc_ascii_ok]. Qed.

(** ** C03: debug and release builds agree *)
Theorem C03_profiles_agree : forall F (fo : FloatOps F) cc input r,
  parse fo cc true input = Done r -> parse fo cc false input = Done r.
Proof. intros F fo cc. exact (sim_parse fo cc). Qed.
Print Assumptions C03_profiles_agree.
Example C03_example : exists x, parse fo_sym cc_ascii true ex_scene = Done (Ok x).
Proof. eexists. vm_compute. reflexivity. Qed.

(** ** C04: tokenization is exactly the lexical grammar *)
Theorem C04_tokenize_grammar : forall F (fo : FloatOps F) cc, cc_ok cc -> forall chk input toks,
  tokenize fo cc chk input = Done (Ok toks) <-> exists t, lf_text input t /\ lexes fo cc chk [] t toks.
Proof. intros F fo cc Hcc. exact (tokenize_grammar fo cc Hcc). Qed.
Print Assumptions C04_tokenize_grammar.
(** The grammar assigns at most one token list to a text. *)
Theorem C04_unambiguous : forall F (fo : FloatOps F) cc, cc_ok cc -> forall chk input t t' toks toks',
  lf_text input t -> lf_text input t' -> lexes fo cc chk [] t toks -> lexes fo cc chk [] t' toks' -> toks = toks'.
Proof. intros F fo cc Hcc. exact (lexes_unambiguous fo cc Hcc). Qed.
Print Assumptions C04_unambiguous.
(** What separates tokens: the characters that are no token of their own. *)
Theorem C04_white_space : forall F (fo : FloatOps F) cc, cc_ok cc -> forall chk c,
  tokenize fo cc chk [c] = Done (Ok []) <-> In c white_space \/ c = c_hash.
Proof. intros F fo cc Hcc. exact (no_token_iff fo cc Hcc). Qed.
Print Assumptions C04_white_space.
Theorem C04_white_space_table : forall c, is_whitespace c = true <-> In c white_space.
Proof. exact white_space_iff. Qed.
Print Assumptions C04_white_space_table.
(** The characters meant by the names used in the grammar, as code points and as letters. *)
Theorem C04_characters : [c_lf; c_cr; c_quote; c_hash; c_plus; c_minus; c_dot; c_0; c_9; c_lbrack; c_bslash; c_rbrack; c_e; c_n] =
    [10; 13; 34; 35; 43; 45; 46; 48; 57; 91; 92; 93; 101; 110]%N /\
  [c_quote; c_hash; c_plus; c_minus; c_dot; c_0; c_9; c_lbrack; c_bslash; c_rbrack; c_e; c_n] = s2l """#+-.09[\]en".
Proof. exact (conj eq_refl eq_refl). Qed.
Print Assumptions C04_characters.
Theorem C04_classes : forall cc c, (is_ascii_digit c = true <-> In c (s2l "0123456789")) /\
  (is_ascii_alpha c = true <-> In c (s2l "ABCDEFGHIJKLMNOPQRSTUVWXYZabcdefghijklmnopqrstuvwxyz")) /\
  (is_alphanumeric cc c = true <-> is_alphabetic cc c = true \/ is_numeric cc c = true).
Proof. exact ascii_classes. Qed.
Print Assumptions C04_classes.
Example C04_example : tokenize fo_sym cc_ascii true (s2l "Shape ""a\""b""[-1 2.5e-3]# end") =
  Done (Ok [mkTok (mkPos 1 1) (TIdent (s2l "Shape")); mkTok (mkPos 1 7) (TStr (s2l "a""b"));
            mkTok (mkPos 1 13) TLBracket; mkTok (mkPos 1 14) (TInt (-1));
            mkTok (mkPos 1 17) (TFloat (SMul (SDec false 25 1) (SPow10 (SInt (-3)))));
            mkTok (mkPos 1 23) TRBracket]).
Proof. vm_compute. reflexivity. Qed.

(** ** C05: positions are those of the first characters, strictly increasing *)
Theorem C05_positions : forall F (fo : FloatOps F) cc, cc_ok cc -> forall chk input toks,
  tokenize fo cc chk input = Done (Ok toks) ->
  StronglySorted pos_lt (map tok_pos toks) /\
  exists t, lf_text input t /\
    Forall (fun k => exists pre text rest, t = pre ++ text ++ rest /\ lexeme fo cc chk text (tok_ty k) rest /\
                       tok_pos k = pos_of pre) toks.
Proof. intros F fo cc Hcc. exact (tokenize_positions fo cc Hcc). Qed.
Print Assumptions C05_positions.
Example C05_example : exists toks, tokenize fo_sym cc_ascii true ex_scene = Done (Ok toks) /\ length toks = 12.
Proof. eexists. split; vm_compute; reflexivity. Qed.

(** ** C06: CR LF and LF *)
(** For texts that contain no CR LF pair yet, and only for such texts in general. *)
Theorem C06_crlf : forall F (fo : FloatOps F) cc chk s, no_pair s -> parse fo cc chk (to_crlf s) = parse fo cc chk s.
Proof. intros F fo cc. exact (parse_to_crlf fo cc). Qed.
Print Assumptions C06_crlf.
Theorem C06_crlf_back : forall F (fo : FloatOps F) cc chk s t, lf_text s t -> no_pair t ->
  parse fo cc chk s = parse fo cc chk t.
Proof. intros F fo cc. exact (parse_lf_text fo cc). Qed.
Print Assumptions C06_crlf_back.
Example C06_example : no_pair ex_scene /\ to_crlf ex_scene <> ex_scene.
Proof. split; [apply no_cr_no_pair; vm_compute; intuition discriminate|vm_compute; discriminate]. Qed.
(** Without the restriction the statement is false: a second CR in front of a CR LF is left in the text. *)
Theorem C06_all_texts_refuted : exists s, parse fo_sym cc_ascii false (to_crlf s) <> parse fo_sym cc_ascii false s.
Proof. exact crlf_all_texts_refuted. Qed.
Print Assumptions C06_all_texts_refuted.

(** ** C08: string literals *)
Theorem C08_literal : forall F (fo : FloatOps F) cc, cc_ok cc -> forall chk v,
  tokenize fo cc chk (literal v) = Done (Ok [mkTok (mkPos 1 1) (TStr v)]).
Proof. intros F fo cc Hcc. exact (literal_alone fo cc Hcc). Qed.
Print Assumptions C08_literal.
(** Directly in front of anything else, and on a line of its own inside any text. *)
Theorem C08_literal_first : forall F (fo : FloatOps F) cc, cc_ok cc -> forall chk v rest toks,
  tokenize fo cc chk (literal v ++ rest) = Done (Ok toks) <->
  exists t t', lf_text rest t /\ toks = mkTok (mkPos 1 1) (TStr v) :: t' /\ lexes fo cc chk (literal v) t t'.
Proof. intros F fo cc Hcc. exact (literal_first_spec fo cc Hcc). Qed.
Print Assumptions C08_literal_first.
Theorem C08_literal_inside : forall F (fo : FloatOps F) cc, cc_ok cc -> forall chk a ta v b,
  ~ ends_cr a -> tokenize fo cc chk a = Done (Ok ta) ->
  forall t, tokenize fo cc chk (a ++ c_lf :: literal v ++ c_lf :: b) = Done (Ok t) <->
    exists tb, tokenize fo cc chk b = Done (Ok tb) /\
      t = ta ++ mkTok (mkPos (lines a + 1) 1) (TStr v) :: map (tok_down (lines a + 1)) tb.
Proof. intros F fo cc Hcc. exact (literal_on_line fo cc Hcc). Qed.
Print Assumptions C08_literal_inside.
(** The code points of quote and backslash are 34 and 92, that of the letter n is 110: backslash and n is a line feed, and
    backslash and anything else is that other character. *)
Theorem C08_escapes : forall F (fo : FloatOps F) cc, cc_ok cc -> forall chk c, tokenize fo cc chk [34; 92; c; 34]%N =
  Done (Ok [mkTok (mkPos 1 1) (TStr [if (c =? 110)%N then 10%N else c])]).
Proof. intros F fo cc Hcc. exact (escape_meaning fo cc Hcc). Qed.
Print Assumptions C08_escapes.
(** An opening quote with no matching unescaped quote after it is an error. *)
Theorem C08_unterminated : forall F (fo : FloatOps F) cc, cc_ok cc -> forall chk s t, lf_text s t ->
  (forall src v rest, t = src ++ c_quote :: rest -> ~ str_body src v) ->
  exists m, tokenize fo cc chk (c_quote :: s) = Done (Err (EStr m)).
Proof. intros F fo cc Hcc. exact (unterminated_spec fo cc Hcc). Qed.
Print Assumptions C08_unterminated.
Example C08_example : literal (s2l "a""b\") = s2l """a\""b\\""".
Proof. vm_compute. reflexivity. Qed.
Example C08_example_unterminated : forall src v rest, s2l "ab\" = src ++ c_quote :: rest -> ~ str_body src v.
Proof. exact no_quote_unterminated. Qed.

(** ** C09: decimal integer literals *)
Theorem C09_in_range : forall F (fo : FloatOps F) cc, cc_ok cc -> forall chk sg neg ds,
  sign sg neg -> ds <> [] -> all_digits ds -> fits (signed neg (dec_val ds)) ->
  tokenize fo cc chk (sg ++ ds) = Done (Ok [mkTok (mkPos 1 1) (TInt (signed neg (dec_val ds)))]).
Proof. intros F fo cc Hcc. exact (int_literal_alone fo cc Hcc). Qed.
Print Assumptions C09_in_range.
Theorem C09_in_range_first : forall F (fo : FloatOps F) cc, cc_ok cc -> forall chk sg neg ds rest toks,
  sign sg neg -> ds <> [] -> all_digits ds -> ends_number cc rest -> fits (signed neg (dec_val ds)) ->
  (tokenize fo cc chk (sg ++ ds ++ rest) = Done (Ok toks) <->
   exists t t', lf_text rest t /\ toks = mkTok (mkPos 1 1) (TInt (signed neg (dec_val ds))) :: t' /\
                lexes fo cc chk (sg ++ ds) t t').
Proof. intros F fo cc Hcc. exact (int_literal_first_spec fo cc Hcc). Qed.
Print Assumptions C09_in_range_first.
Theorem C09_out_of_range : forall F (fo : FloatOps F) cc, cc_ok cc -> forall chk sg neg ds rest,
  sign sg neg -> ds <> [] -> all_digits ds -> ends_number cc rest -> ~ fits (signed neg (dec_val ds)) ->
  exists m, tokenize fo cc chk (sg ++ ds ++ rest) = Done (Err (EStr m)).
Proof. intros F fo cc Hcc. exact (int_literal_too_big fo cc Hcc). Qed.
Print Assumptions C09_out_of_range.
(** Every machine integer has such a literal. *)
Theorem C09_every_integer : forall F (fo : FloatOps F) cc, cc_ok cc -> forall chk z, fits z ->
  exists text, tokenize fo cc chk text = Done (Ok [mkTok (mkPos 1 1) (TInt z)]).
Proof. intros F fo cc Hcc. exact (every_integer fo cc Hcc). Qed.
Print Assumptions C09_every_integer.
Example C09_example : tokenize fo_sym cc_ascii true (s2l "-9223372036854775808") =
  Done (Ok [mkTok (mkPos 1 1) (TInt (- 2 ^ 63))]) /\
  exists m, tokenize fo_sym cc_ascii true (s2l "9223372036854775808") = Done (Err m).
Proof. split; [vm_compute; reflexivity|eexists; vm_compute; reflexivity]. Qed.

(** ** C10: integer literals with an exponent *)
(** False in general: the exponent is truncated to 32 bits. *)
Theorem C10_exponent_refuted : exists ds es : str, all_digits ds /\ all_digits es /\ exists v : Z,
  tokenize fo_sym cc_ascii true (ds ++ c_e :: es) = Done (Ok [mkTok (mkPos 1 1) (TInt v)]) /\
  v <> (dec_val ds * 10 ^ dec_val es)%Z.
Proof. exact exponent_refuted. Qed.
Print Assumptions C10_exponent_refuted.
(** The full statement, for reference: the conclusion of the next theorem without [dec_val es < 2 ^ 32] and without the
    requirement that the power of ten itself fits. *)
Theorem C10_exponent_partial : forall F (fo : FloatOps F) cc, cc_ok cc -> forall chk sg neg ds sg' es,
  sign sg neg -> ds <> [] -> all_digits ds -> sign sg' false -> es <> [] -> all_digits es ->
  (dec_val es < 2 ^ 32)%Z -> fits (10 ^ dec_val es) -> fits (signed neg (dec_val ds) * 10 ^ dec_val es) ->
  tokenize fo cc chk (sg ++ ds ++ c_e :: sg' ++ es) =
    Done (Ok [mkTok (mkPos 1 1) (TInt (signed neg (dec_val ds) * 10 ^ dec_val es))]).
Proof. intros F fo cc Hcc. exact (exponent_small fo cc Hcc). Qed.
Print Assumptions C10_exponent_partial.
(** What happens for every exponent. *)
Theorem C10_exponent_exact : forall F (fo : FloatOps F) cc, cc_ok cc -> forall chk sg neg ds sg' es,
  sign sg neg -> ds <> [] -> all_digits ds -> fits (signed neg (dec_val ds)) ->
  sign sg' false -> es <> [] -> all_digits es -> fits (dec_val es) ->
  let m := signed neg (dec_val ds) in let p := (10 ^ (dec_val es mod 2 ^ 32))%Z in
  let o := tokenize fo cc chk (sg ++ ds ++ c_e :: sg' ++ es) in
  if chk then (fits p /\ fits (m * p) /\ o = Done (Ok [mkTok (mkPos 1 1) (TInt (m * p))])) \/
              (~ (fits p /\ fits (m * p)) /\ o = Panic)
  else o = Done (Ok [mkTok (mkPos 1 1) (TInt (wrap (m * p)))]).
Proof. intros F fo cc Hcc. exact (exponent_exact fo cc Hcc). Qed.
Print Assumptions C10_exponent_exact.
Example C10_example : tokenize fo_sym cc_ascii true (s2l "-5e+3") = Done (Ok [mkTok (mkPos 1 1) (TInt (-5000))]).
Proof. vm_compute. reflexivity. Qed.

(** ** C11: a lexical error anywhere rejects the file *)
Theorem C11_lexical_error : forall F (fo : FloatOps F) cc chk input m,
  tokenize fo cc chk input = Done (Err (EStr m)) -> parse fo cc chk input = Done (Err (EStr m)).
Proof. intros F fo cc. exact (parse_lex_err fo cc). Qed.
Print Assumptions C11_lexical_error.
Theorem C11_lexical_error_after : forall F (fo : FloatOps F) cc, cc_ok cc -> forall chk a ta b m,
  ~ ends_cr a -> tokenize fo cc chk a = Done (Ok ta) -> tokenize fo cc chk b = Done (Err (EStr m)) ->
  exists m', parse fo cc chk (a ++ c_lf :: b) = Done (Err (EStr m')).
Proof. intros F fo cc Hcc. exact (parse_lex_err_after fo cc Hcc). Qed.
Print Assumptions C11_lexical_error_after.
Example C11_example : exists ta m, tokenize fo_sym cc_ascii true ex_scene = Done (Ok ta) /\ ~ ends_cr ex_scene /\
  tokenize fo_sym cc_ascii true (s2l "ok $") = Done (Err (EStr m)).
Proof.
  do 2 eexists. split; [vm_compute; reflexivity|]. split; [|vm_compute; reflexivity].
  apply not_ends_cr. vm_compute. intuition discriminate.
Qed.

(** ** C27: texts are tokenized line by line *)
Theorem C27_concat : forall F (fo : FloatOps F) cc, cc_ok cc -> forall chk a ta b,
  ~ ends_cr a -> tokenize fo cc chk a = Done (Ok ta) ->
  forall t, tokenize fo cc chk (a ++ c_lf :: b) = Done (Ok t) <->
    exists tb, tokenize fo cc chk b = Done (Ok tb) /\ t = ta ++ map (tok_down (lines a)) tb.
Proof. intros F fo cc Hcc. exact (tokenize_concat fo cc Hcc). Qed.
Print Assumptions C27_concat.
Theorem C27_concat_panic : forall F (fo : FloatOps F) cc, cc_ok cc -> forall chk a ta b,
  ~ ends_cr a -> tokenize fo cc chk a = Done (Ok ta) ->
  (tokenize fo cc chk (a ++ c_lf :: b) = Panic <-> tokenize fo cc chk b = Panic).
Proof. intros F fo cc Hcc. exact (tokenize_concat_panic fo cc Hcc). Qed.
Print Assumptions C27_concat_panic.
Example C27_example : exists ta tb, tokenize fo_sym cc_ascii true ex_scene = Done (Ok ta) /\ ~ ends_cr ex_scene /\
  tokenize fo_sym cc_ascii true (s2l "[ 1 # x") = Done (Ok tb).
Proof.
  do 2 eexists. split; [vm_compute; reflexivity|]. split; [|vm_compute; reflexivity].
  apply not_ends_cr. vm_compute. intuition discriminate.
Qed.
