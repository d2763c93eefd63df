(** Declarative specification of lexical errors: which texts are rejected and with which message. Like LexSpec, nothing
    here refers to the functions of the tokenizer model. *)
From Verif Require Import Base TokModel LexSpec.

Section LexErr.
Context {F : Type} (fo : FloatOps F) (cc : CharClass).

(** The text [s] split at the end of the characters a number can start with: optional sign, numeric characters with at
    most one dot, and what follows. *)
Record num_parts (s sg : str) (neg : bool) (body : str) (dot : bool) (rest : str) : Prop := {
  np_text : s = sg ++ body ++ rest;
  np_sign : sign sg neg;
  np_sign_max : sg = [] -> next_is (fun c => c <> c_plus /\ c <> c_minus) s;
  np_body : mantissa cc body dot;
  np_rest : next_is (fun c => is_numeric cc c = false /\ (c = c_dot -> dot = true)) rest }.

(** Errors of [str::parse]. They carry no position. *)
Definition msg_digit : list (piece F) := [PText "invalid digit found in string"].
Definition msg_range (neg : bool) : list (piece F) :=
  [PText (if neg then "number too small to fit in target type" else "number too large to fit in target type")].
Definition msg_float : list (piece F) := [PText "invalid float literal"].

(** [int_error neg body m]: the characters [body] with sign [neg] are not a machine integer. The digits are read from the
    left, and whatever comes first, a bad character or leaving the range, is reported. *)
Inductive int_error : bool -> str -> list (piece F) -> Prop :=
| ie_lone_sign : int_error true [] msg_digit
| ie_digit : forall neg ds c t, all_digits ds -> fits (signed neg (dec_val ds)) -> is_ascii_digit c = false ->
    int_error neg (ds ++ c :: t) msg_digit
| ie_range : forall neg ds t, all_digits ds -> ~ fits (signed neg (dec_val ds)) -> int_error neg (ds ++ t) (msg_range neg).

Definition float_error (body : str) : Prop := forall m k, ~ dec_num body m k.

(** [num_error chk pre s m]: with [pre] already read, the number that should start [s] is rejected with message [m]. *)
Inductive num_error (chk : bool) : str -> str -> list (piece F) -> Prop :=
| ne_none : forall pre s sg rest, num_parts s sg false [] false rest ->
    num_error chk pre s [PPos (pos_of (pre ++ sg)); PText " tokenize_num(): no number"]
| ne_second_dot : forall pre s sg neg body rest, num_parts s sg neg body true (c_dot :: rest) ->
    num_error chk pre s [PPos (pos_of (pre ++ sg ++ body)); PText " tokenize_num(): unexpected char '"; PChar c_dot; PText "'"]
| ne_int : forall pre s sg neg body rest m, num_parts s sg neg body false rest -> next_is (fun c => c <> c_e) rest ->
    int_error neg body m -> num_error chk pre s m
| ne_float : forall pre s sg neg body rest, num_parts s sg neg body true rest ->
    next_is (fun c => c <> c_dot /\ c <> c_e) rest -> float_error body -> num_error chk pre s msg_float
| ne_exponent : forall pre s sg neg body dot s' m, num_parts s sg neg body dot (c_e :: s') -> (neg = true \/ body <> []) ->
    num_error chk (pre ++ sg ++ body ++ [c_e]) s' m -> num_error chk pre s m
| ne_int_exp : forall pre s sg neg body text e rest m, num_parts s sg neg body false (c_e :: text ++ rest) ->
    (neg = true \/ body <> []) -> number fo cc chk text (TInt e) rest -> (0 <= e)%Z -> int_error neg body m ->
    num_error chk pre s m
| ne_float_exp : forall pre s sg neg body dot text v rest, num_parts s sg neg body dot (c_e :: text ++ rest) ->
    (neg = true \/ body <> []) -> number fo cc chk text v rest ->
    (dot = true \/ forall e, v = TInt e -> (e < 0)%Z) -> float_error body ->
    num_error chk pre s msg_float.

(** [open_string s esc]: after an opening quote the text [s] ends before the closing quote; [esc]: just after a backslash. *)
Inductive open_string : str -> bool -> Prop :=
| os_end : open_string [] false
| os_escape_end : open_string [c_bslash] true
| os_plain : forall c s esc, c <> c_bslash -> c <> c_quote -> open_string s esc -> open_string (c :: s) esc
| os_escape : forall c s esc, open_string s esc -> open_string (c_bslash :: c :: s) esc.

(** A character that can start no token, comment or white space. *)
Definition starts_nothing (c : char) : Prop :=
  ~ In c [c_hash; c_quote; c_lbrack; c_rbrack; c_minus; c_plus; c_dot] /\
  is_numeric cc c = false /\ is_whitespace c = false /\ is_alphabetic cc c = false.

(** [token_error chk pre s m]: [s] does not start with a token, and this is reported as [m]. *)
Inductive token_error (chk : bool) : str -> str -> list (piece F) -> Prop :=
| te_char : forall pre c s, starts_nothing c ->
    token_error chk pre (c :: s) [PPos (pos_of pre); PText " tokenize_one(): unexpected char '"; PChar c; PText "'"]
| te_string : forall pre s, open_string s false ->
    token_error chk pre (c_quote :: s) [PPos (pos_of (pre ++ c_quote :: s)); PText " tokenize_str(): EOF while processing string"]
| te_escape : forall pre s, open_string (s ++ [c_bslash]) true ->
    token_error chk pre (c_quote :: s ++ [c_bslash])
      [PPos (pos_of (pre ++ c_quote :: s)); PText " tokenize_str(): EOF while processing escape seq"]
| te_num : forall pre c s m, In c [c_minus; c_plus; c_dot] \/ is_numeric cc c = true -> num_error chk pre (c :: s) m ->
    token_error chk pre (c :: s) m.

(** [lex_error chk pre s m]: with [pre] already read, [s] consists of tokens, white space and comments up to a place where
    no token starts, which is reported as [m]. *)
Inductive lex_error (chk : bool) : str -> str -> list (piece F) -> Prop :=
| le_space : forall pre c s m, is_whitespace c = true -> lex_error chk (pre ++ [c]) s m -> lex_error chk pre (c :: s) m
| le_comment : forall pre body s m, ~ In c_lf body ->
    lex_error chk (pre ++ c_hash :: body ++ [c_lf]) s m -> lex_error chk pre (c_hash :: body ++ c_lf :: s) m
| le_token : forall pre text ty s m, lexeme fo cc chk text ty s -> lex_error chk (pre ++ text) s m ->
    lex_error chk pre (text ++ s) m
| le_here : forall pre s m, token_error chk pre s m -> lex_error chk pre s m.

End LexErr.
