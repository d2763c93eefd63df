(** Declarative specification of the lexical layer. Nothing here refers to the functions of the tokenizer model;
    only its data types ([Pos], [Token], [TokenType]) are shared. *)
From Verif Require Import Base TokModel.

(** ** Source positions: 1-based row and column of the character that follows the prefix [pre]. *)
Definition row_of (pre : str) : nat := 1 + count_occ N.eq_dec pre c_lf.
Fixpoint until_lf (s : str) : nat :=
  match s with [] => 0 | c :: t => if (c =? c_lf)%N then 0 else S (until_lf t) end.
(** one more than the number of characters since the last line feed *)
Definition col_of (pre : str) : nat := 1 + until_lf (rev pre).
Definition pos_of (pre : str) : Pos := mkPos (row_of pre) (col_of pre).

(** Document order of positions. *)
Definition pos_lt (p q : Pos) : Prop :=
  pos_r p < pos_r q \/ (pos_r p = pos_r q /\ pos_c p < pos_c q).

(** ** White space: the code points with the Unicode property White_Space *)
Definition white_space : list char :=
  [9; 10; 11; 12; 13; 32; 133; 160; 5760; 8192; 8193; 8194; 8195; 8196; 8197; 8198; 8199; 8200; 8201; 8202;
   8232; 8233; 8239; 8287; 12288]%N.

(** ** Line ends *)
(** Write every line feed as CR LF. *)
Fixpoint to_crlf (s : str) : str :=
  match s with
  | [] => []
  | c :: t => if (c =? c_lf)%N then c_cr :: c_lf :: to_crlf t else c :: to_crlf t
  end.
(** [lf_text s t]: [t] is [s] with every CR LF pair, and nothing else, rewritten as LF. *)
Inductive lf_text : str -> str -> Prop :=
| lt_nil : lf_text [] []
| lt_pair : forall s t, lf_text s t -> lf_text (c_cr :: c_lf :: s) (c_lf :: t)
| lt_char : forall c s t, (c <> c_cr \/ forall s', s <> c_lf :: s') ->
                          lf_text s t -> lf_text (c :: s) (c :: t).

(** No CR LF pair. *)
Definition no_pair (s : str) : Prop := forall a b, s <> a ++ c_cr :: c_lf :: b.
Definition ends_cr (a : str) : Prop := exists x, a = x ++ [c_cr].
(** No '#' on the last line. *)
Definition no_open_comment (a : str) : Prop := forall x body, a = x ++ c_hash :: body -> In c_lf body.

(** [down k]: [k] rows further down. *)
Definition down (k : nat) (p : Pos) : Pos := mkPos (k + pos_r p) (pos_c p).
Definition tok_down {F} (k : nat) (t : Token F) : Token F := mkTok (down k (tok_pos t)) (tok_ty t).
(** The number of lines of a text that is followed by a line feed. *)
Definition lines (a : str) : nat := 1 + count_occ N.eq_dec a c_lf.

(** ** Quoted strings: [str_body src v]: the characters [src] between the quotes denote [v]. *)
Inductive str_body : str -> str -> Prop :=
| sb_nil : str_body [] []
| sb_plain : forall c s v, c <> c_bslash -> c <> c_quote -> str_body s v -> str_body (c :: s) (c :: v)
| sb_newline : forall s v, str_body s v -> str_body (c_bslash :: c_n :: s) (c_lf :: v)
| sb_escape : forall c s v, c <> c_n -> str_body s v -> str_body (c_bslash :: c :: s) (c :: v).

(** A literal for any string. *)
Fixpoint escape (v : str) : str :=
  match v with
  | [] => []
  | c :: t => if (c =? c_lf)%N then c_bslash :: c_n :: escape t
              else if ((c =? c_bslash) || (c =? c_quote))%N then c_bslash :: c :: escape t
              else c :: escape t
  end.
Definition literal (v : str) : str := c_quote :: escape v ++ [c_quote].

(** ** Decimal numerals *)
Definition dec_val (ds : str) : Z := fold_left (fun a c => (10 * a + Z.of_N (c - c_0)%N)%Z) ds 0%Z.
Definition all_digits (ds : str) : Prop := Forall (fun c => is_ascii_digit c = true) ds.
Definition signed (neg : bool) (z : Z) : Z := if neg then (- z)%Z else z.
Definition fits (z : Z) : Prop := (- 2 ^ 63 <= z <= 2 ^ 63 - 1)%Z.

(** [int_num neg ds v]: digits [ds] with sign [neg] denote the machine integer [v]. *)
Definition int_num (neg : bool) (ds : str) (v : Z) : Prop :=
  ds <> [] /\ all_digits ds /\ v = signed neg (dec_val ds) /\ fits v.

(** [dec_num ds m k]: [ds] is a decimal numeral with at most one dot denoting [m * 10^-k]. *)
Inductive dec_num : str -> N -> nat -> Prop :=
| dn_int : forall a, a <> [] -> all_digits a -> dec_num a (Z.to_N (dec_val a)) 0
| dn_dot : forall a b, a ++ b <> [] -> all_digits a -> all_digits b ->
                       dec_num (a ++ c_dot :: b) (Z.to_N (dec_val (a ++ b))) (length b).

Section Lex.
Context {F : Type} (fo : FloatOps F) (cc : CharClass).

(** The next character (if any) satisfies [P]. *)
Definition next_is (P : char -> Prop) (s : str) : Prop := match s with [] => True | c :: _ => P c end.

(** A number cannot go on here. *)
Definition ends_number (rest : str) : Prop := next_is (fun c => is_numeric cc c = false /\ c <> c_dot /\ c <> c_e) rest.

(** Sign characters: spelling and whether negative. *)
Inductive sign : str -> bool -> Prop :=
| sg_none : sign [] false
| sg_plus : sign [c_plus] false
| sg_minus : sign [c_minus] true.

(** The characters of a number before its exponent: numeric characters and at most one dot. *)
Definition mantissa (body : str) (dot : bool) : Prop :=
  if dot then exists a b, body = a ++ c_dot :: b /\ Forall (fun c => is_numeric cc c = true) (a ++ b)
  else Forall (fun c => is_numeric cc c = true) body.

(** Value of [m * 10^e] for an integer literal with integer exponent. The exponent is truncated to 32 bits.
    With overflow checks ([chk = true]) both the power and the product must fit; without, the product wraps. *)
Definition int_exp (chk : bool) (m e v : Z) : Prop :=
  let p := (10 ^ (e mod 2 ^ 32))%Z in
  (fits p /\ fits (m * p) /\ v = (m * p)%Z) \/ (chk = false /\ v = wrap (m * p)).

(** [number chk text v rest]: [text], followed by [rest], is a number literal denoting the token [v]. *)
Inductive number (chk : bool) : str -> TokenType F -> str -> Prop :=
| nu_int : forall sg neg body v rest,
    sign sg neg -> mantissa body false -> int_num neg body v ->
    next_is (fun c => is_numeric cc c = false /\ c <> c_dot /\ c <> c_e) rest ->
    number chk (sg ++ body) (TInt v) rest
| nu_dec : forall sg neg body m k rest,
    sign sg neg -> mantissa body true -> dec_num body m k ->
    next_is (fun c => is_numeric cc c = false /\ c <> c_dot /\ c <> c_e) rest ->
    number chk (sg ++ body) (TFloat (f_dec fo neg m k)) rest
| nu_int_exp : forall sg neg body m text e v rest,
    sign sg neg -> mantissa body false -> int_num neg body m ->
    number chk text (TInt e) rest -> (0 <= e)%Z -> int_exp chk m e v ->
    number chk (sg ++ body ++ c_e :: text) (TInt v) rest
| nu_dec_exp : forall sg neg body dot m k text e rest,
    sign sg neg -> mantissa body dot -> dec_num body m k ->
    number chk text (TInt e) rest -> (e < 0)%Z \/ dot = true ->
    number chk (sg ++ body ++ c_e :: text) (TFloat (f_mul fo (f_dec fo neg m k) (f_powf10 fo (f_of_isize fo e)))) rest
| nu_float_exp : forall sg neg body dot m k text f rest,
    sign sg neg -> mantissa body dot -> dec_num body m k ->
    number chk text (TFloat f) rest ->
    number chk (sg ++ body ++ c_e :: text) (TFloat (f_mul fo (f_dec fo neg m k) (f_powf10 fo f))) rest.

(** [number_overflows text rest]: evaluating the number that starts the input overflows the machine integer. *)
Inductive number_overflows : str -> str -> Prop :=
| no_here : forall sg neg body m text e rest,
    sign sg neg -> mantissa body false -> int_num neg body m ->
    number true text (TInt e) rest -> (0 <= e)%Z ->
    ~ (fits (10 ^ (e mod 2 ^ 32)) /\ fits (m * 10 ^ (e mod 2 ^ 32))) ->
    number_overflows (sg ++ body ++ c_e :: text) rest
| no_exponent : forall sg neg body dot text rest,
    sign sg neg -> mantissa body dot -> (neg = true \/ body <> []) ->
    number_overflows text rest ->
    number_overflows (sg ++ body ++ c_e :: text) rest.

(** Identifiers: a letter, then letters and numeric characters, as many as possible. *)
Definition identifier (text rest : str) : Prop :=
  exists c t, text = c :: t /\ is_alphabetic cc c = true /\ is_numeric cc c = false /\
              Forall (fun c => is_alphanumeric cc c = true) t /\
              next_is (fun c => is_alphanumeric cc c = false) rest.

(** One token: [lexeme text ty rest]: the characters [text], followed by [rest], are the token [ty]. *)
Inductive lexeme (chk : bool) : str -> TokenType F -> str -> Prop :=
| lx_lbracket : forall rest, lexeme chk [c_lbrack] TLBracket rest
| lx_rbracket : forall rest, lexeme chk [c_rbrack] TRBracket rest
| lx_str : forall src v rest, str_body src v -> lexeme chk (c_quote :: src ++ [c_quote]) (TStr v) rest
| lx_ident : forall text rest, identifier text rest -> lexeme chk text (TIdent text) rest
| lx_num : forall text v rest, number chk text v rest -> lexeme chk text v rest.

(** [lexes chk pre s toks]: with [pre] already read, the remaining text [s] consists of the tokens [toks]
    separated by white space and comments. *)
Inductive lexes (chk : bool) : str -> str -> list (Token F) -> Prop :=
| ls_end : forall pre, lexes chk pre [] []
| ls_space : forall pre c s toks, is_whitespace c = true ->
    lexes chk (pre ++ [c]) s toks -> lexes chk pre (c :: s) toks
| ls_comment : forall pre body s toks, ~ In c_lf body ->
    lexes chk (pre ++ c_hash :: body ++ [c_lf]) s toks -> lexes chk pre (c_hash :: body ++ c_lf :: s) toks
| ls_comment_end : forall pre body, ~ In c_lf body -> lexes chk pre (c_hash :: body) []
| ls_token : forall pre text ty s toks, lexeme chk text ty s ->
    lexes chk (pre ++ text) s toks -> lexes chk pre (text ++ s) (mkTok (pos_of pre) ty :: toks).

(** [lex_overflows s]: reading [s] token by token reaches a number whose evaluation overflows. *)
Inductive lex_overflows : str -> Prop :=
| lo_space : forall c s, is_whitespace c = true -> lex_overflows s -> lex_overflows (c :: s)
| lo_comment : forall body s, ~ In c_lf body -> lex_overflows s -> lex_overflows (c_hash :: body ++ c_lf :: s)
| lo_token : forall text ty s, lexeme true text ty s -> lex_overflows s -> lex_overflows (text ++ s)
| lo_here : forall text s, number_overflows text s -> lex_overflows (text ++ s).

End Lex.
