(** Tokenizer and parser together: statements about texts. *)
From Coq Require Import Sorted.
From Verif Require Import Base TokModel ParModel LexSpec SceneSpec TokProofs LexProofs LexThms ParProofs DirProofs SimProofs.
Open Scope mon_scope.

Section Text.
Context {F : Type} (fo : FloatOps F) (cc : CharClass) (Hcc : cc_ok cc).

Lemma parse_panic chk input : parse fo cc chk input = Panic <-> tokenize fo cc chk input = Panic.
Proof.
  unfold parse. destruct (tokenize fo cc chk input) as [[toks|e]| |] eqn:E; try (split; congruence).
  split; [|congruence]. destruct (parse_tokens_no_panic fo toks) as [r ->]. discriminate.
Qed.
Lemma parse_panic_iff chk input :
  parse fo cc chk input = Panic <-> chk = true /\ exists t, lf_text input t /\ lex_overflows fo cc t.
Proof. rewrite parse_panic. now apply tokenize_panics. Qed.
Lemma parse_outcome chk input :
  (exists r, parse fo cc chk input = Done r) \/
  (parse fo cc chk input = Panic /\ chk = true /\ exists t, lf_text input t /\ lex_overflows fo cc t).
Proof.
  destruct (parse fo cc chk input) as [r| |] eqn:E; [left; eauto|right|exfalso].
  - split; [reflexivity|]. now apply (parse_panic_iff chk input).
  - unfold parse in E. destruct (tokenize fo cc chk input) as [[toks|e]| |] eqn:E'; try discriminate.
    + destruct (parse_tokens_no_panic fo toks) as [r R]. congruence.
    + now apply (tokenize_no_fuel fo cc Hcc chk input).
Qed.
Lemma parse_ends chk input : parse fo cc chk input <> OutOfFuel.
Proof. destruct (parse_outcome chk input) as [[r ->]|[-> _]]; discriminate. Qed.
Lemma parse_no_e chk input : ~ In c_e input -> exists r, parse fo cc chk input = Done r.
Proof.
  intros H. destruct (parse_outcome chk input) as [E|[E _]]; [assumption|]. apply parse_panic in E.
  now elim (no_e_no_panic fo cc Hcc chk input H).
Qed.
Lemma parse_unchecked input : exists r, parse fo cc false input = Done r.
Proof. destruct (parse_outcome false input) as [E|(_ & E & _)]; [assumption|discriminate]. Qed.

Lemma parse_lex_err chk input m : tokenize fo cc chk input = Done (Err (EStr m)) ->
  parse fo cc chk input = Done (Err (EStr m)).
Proof. intros H. unfold parse. now rewrite H. Qed.
Lemma parse_lex_err_after chk a ta b m : ~ ends_cr a -> tokenize fo cc chk a = Done (Ok ta) ->
  tokenize fo cc chk b = Done (Err (EStr m)) -> exists m', parse fo cc chk (a ++ c_lf :: b) = Done (Err (EStr m')).
Proof.
  intros Hn Ha Hb. destruct (tokenize_concat_err fo cc Hcc chk a ta b m Hn Ha Hb) as [m' H]. exists m'. now apply parse_lex_err.
Qed.

Lemma parse_ok_iff chk input x : parse fo cc chk input = Done (Ok x) <->
  exists t toks, lf_text input t /\ lexes fo cc chk [] t toks /\ scene fo toks x.
Proof.
  split.
  - unfold parse. destruct (tokenize fo cc chk input) as [[toks|e]| |] eqn:E; try discriminate.
    intros H. apply (proj1 (tokenize_grammar fo cc Hcc _ _ _)) in E as (t & Ht & Hl).
    exists t, toks. repeat split; try assumption. now apply parse_tokens_iff.
  - intros (t & toks & Ht & Hl & Hs). unfold parse.
    rewrite (proj2 (tokenize_grammar fo cc Hcc chk input toks)) by eauto. now apply parse_tokens_iff.
Qed.
Lemma parse_eof_iff chk input : parse fo cc chk input = Done (Err EEof) <->
  exists t toks, lf_text input t /\ lexes fo cc chk [] t toks /\ scene_eof fo toks.
Proof.
  split.
  - unfold parse. destruct (tokenize fo cc chk input) as [[toks|e]| |] eqn:E; try discriminate.
    + intros H. apply (proj1 (tokenize_grammar fo cc Hcc _ _ _)) in E as (t & Ht & Hl).
      exists t, toks. repeat split; try assumption. now apply parse_tokens_eof_iff.
    + destruct e; cbn; [discriminate|]. now elim (tokenize_err_not_eof fo cc Hcc chk input).
  - intros (t & toks & Ht & Hl & Hs). unfold parse.
    rewrite (proj2 (tokenize_grammar fo cc Hcc chk input toks)) by eauto. now apply parse_tokens_eof_iff.
Qed.

Lemma parse_to_crlf chk s : no_pair s -> parse fo cc chk (to_crlf s) = parse fo cc chk s.
Proof. intros H. unfold parse. now rewrite to_crlf_tokenize. Qed.

(** A token on a line of its own. *)
Lemma tok_down_down (k n : nat) (t : Token F) : tok_down k (tok_down n t) = tok_down (k + n) t.
Proof. destruct t as [[r c] ty]. unfold tok_down, down. cbn [tok_pos tok_ty pos_r pos_c]. f_equal. f_equal. lia. Qed.
Lemma token_on_line chk a ta text ty b : ~ ends_cr a -> tokenize fo cc chk a = Done (Ok ta) ->
  ~ ends_cr text -> tokenize fo cc chk text = Done (Ok [mkTok (mkPos 1 1) ty]) ->
  forall t, tokenize fo cc chk (a ++ c_lf :: text ++ c_lf :: b) = Done (Ok t) <->
    exists tb, tokenize fo cc chk b = Done (Ok tb) /\
      t = ta ++ mkTok (mkPos (lines a + 1) 1) ty :: map (tok_down (lines a + lines text)) tb.
Proof.
  intros Hn Ha Hn' Hx t. rewrite (tokenize_concat fo cc Hcc chk a ta _ Hn Ha). split.
  - intros (tb & H & ->). apply (tokenize_concat fo cc Hcc chk text _ b Hn' Hx) in H as (tb' & H & ->).
    exists tb'. split; [assumption|]. cbn [map app]. f_equal. f_equal. rewrite map_map. apply map_ext, tok_down_down.
  - intros (tb & H & ->). eexists. split; [apply (tokenize_concat fo cc Hcc chk text _ b Hn' Hx); eauto|].
    cbn [map app]. f_equal. f_equal. rewrite map_map. apply map_ext. intros u. symmetry. apply tok_down_down.
Qed.

Lemma literal_not_cr v : ~ ends_cr (literal v).
Proof.
  intros (x & E). unfold literal in E. change (c_quote :: escape v ++ [c_quote]) with ((c_quote :: escape v) ++ [c_quote]) in E.
  apply app_inj_tail in E as [_ E]. discriminate.
Qed.
Lemma literal_alone chk v : tokenize fo cc chk (literal v) = Done (Ok [mkTok (mkPos 1 1) (TStr v)]).
Proof.
  apply only_token; [assumption|apply literal_lexeme|]. rewrite <- (app_nil_r (literal v)) at 1.
  rewrite literal_replace. apply app_nil_r.
Qed.
Lemma escape_lines v : lines (literal v) = 1.
Proof.
  unfold lines. rewrite (proj1 (count_occ_not_In N.eq_dec (literal v) c_lf)); [reflexivity|].
  unfold literal. intros [H|H]; [discriminate|]. apply in_app_or in H as [H|H].
  - now apply escape_no_lf in H.
  - cbn in H. intuition discriminate.
Qed.
Lemma literal_on_line chk a ta v b : ~ ends_cr a -> tokenize fo cc chk a = Done (Ok ta) ->
  forall t, tokenize fo cc chk (a ++ c_lf :: literal v ++ c_lf :: b) = Done (Ok t) <->
    exists tb, tokenize fo cc chk b = Done (Ok tb) /\
      t = ta ++ mkTok (mkPos (lines a + 1) 1) (TStr v) :: map (tok_down (lines a + 1)) tb.
Proof.
  intros Hn Ha t. rewrite (token_on_line chk a ta _ _ b Hn Ha (literal_not_cr v) (literal_alone chk v)).
  now rewrite escape_lines.
Qed.
End Text.
