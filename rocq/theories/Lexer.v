(** Characters and tokens.

    Models /repo/RFC5322Lexer.g4 (and the token constants of /repo/parser/rfc5322_lexer.go:237-311).
    Every lexer rule matches exactly one character, and no two rules overlap, so the lexer maps
    each character to at most one token type; a token is its type together with its character.
    Positions (line, column, index) are not modelled: nothing in the package reads them. *)
From Coq Require Import List NArith Bool.
Import ListNotations.
Local Open Scope N_scope.

Definition rune := N.      (* a Go rune (Unicode code point) *)   (* parser.go:24 (antlr.NewInputStream) *)
Definition ttype := N.     (* an ANTLR token type *)   (* parser/rfc5322_lexer.go:240-311 *)

(** parser/rfc5322_lexer.go:237-311 (identical constants in parser/rfc5322_parser.go) *)
Definition T_U_00 : ttype := 1.
Definition T_U_01_08 : ttype := 2.   (* parser/rfc5322_lexer.go:242 *)
Definition T_TAB : ttype := 3.   (* parser/rfc5322_lexer.go:243 *)
Definition T_LF : ttype := 4.   (* parser/rfc5322_lexer.go:244 *)
Definition T_U_0B : ttype := 5.   (* parser/rfc5322_lexer.go:245 *)
Definition T_U_0C : ttype := 6.   (* parser/rfc5322_lexer.go:246 *)
Definition T_CR : ttype := 7.   (* parser/rfc5322_lexer.go:247 *)
Definition T_U_0E_1F : ttype := 8.   (* parser/rfc5322_lexer.go:248 *)
Definition T_SP : ttype := 9.   (* parser/rfc5322_lexer.go:249 *)
Definition T_Exclamation : ttype := 10.   (* parser/rfc5322_lexer.go:250 *)
Definition T_DQuote : ttype := 11.   (* parser/rfc5322_lexer.go:251 *)
Definition T_Hash : ttype := 12.   (* parser/rfc5322_lexer.go:252 *)
Definition T_Dollar : ttype := 13.   (* parser/rfc5322_lexer.go:253 *)
Definition T_Percent : ttype := 14.   (* parser/rfc5322_lexer.go:254 *)
Definition T_Ampersand : ttype := 15.   (* parser/rfc5322_lexer.go:255 *)
Definition T_SQuote : ttype := 16.   (* parser/rfc5322_lexer.go:256 *)
Definition T_LParens : ttype := 17.   (* parser/rfc5322_lexer.go:257 *)
Definition T_RParens : ttype := 18.   (* parser/rfc5322_lexer.go:258 *)
Definition T_Asterisk : ttype := 19.   (* parser/rfc5322_lexer.go:259 *)
Definition T_Plus : ttype := 20.   (* parser/rfc5322_lexer.go:260 *)
Definition T_Comma : ttype := 21.   (* parser/rfc5322_lexer.go:261 *)
Definition T_Minus : ttype := 22.   (* parser/rfc5322_lexer.go:262 *)
Definition T_Period : ttype := 23.   (* parser/rfc5322_lexer.go:263 *)
Definition T_Slash : ttype := 24.   (* parser/rfc5322_lexer.go:264 *)
Definition T_Digit : ttype := 25.   (* parser/rfc5322_lexer.go:265 *)
Definition T_Colon : ttype := 26.   (* parser/rfc5322_lexer.go:266 *)
Definition T_Semicolon : ttype := 27.   (* parser/rfc5322_lexer.go:267 *)
Definition T_Less : ttype := 28.   (* parser/rfc5322_lexer.go:268 *)
Definition T_Equal : ttype := 29.   (* parser/rfc5322_lexer.go:269 *)
Definition T_Greater : ttype := 30.   (* parser/rfc5322_lexer.go:270 *)
Definition T_Question : ttype := 31.   (* parser/rfc5322_lexer.go:271 *)
Definition T_At : ttype := 32.   (* parser/rfc5322_lexer.go:272 *)
Definition T_LBracket : ttype := 33.   (* parser/rfc5322_lexer.go:273 *)
Definition T_Backslash : ttype := 34.   (* parser/rfc5322_lexer.go:274 *)
Definition T_RBracket : ttype := 35.   (* parser/rfc5322_lexer.go:275 *)
Definition T_Caret : ttype := 36.   (* parser/rfc5322_lexer.go:276 *)
Definition T_Underscore : ttype := 37.   (* parser/rfc5322_lexer.go:277 *)
Definition T_Backtick : ttype := 38.   (* parser/rfc5322_lexer.go:278 *)
Definition T_LCurly : ttype := 39.   (* parser/rfc5322_lexer.go:279 *)
Definition T_Pipe : ttype := 40.   (* parser/rfc5322_lexer.go:280 *)
Definition T_RCurly : ttype := 41.   (* parser/rfc5322_lexer.go:281 *)
Definition T_Tilde : ttype := 42.   (* parser/rfc5322_lexer.go:282 *)
Definition T_Delete : ttype := 43.   (* parser/rfc5322_lexer.go:283 *)
Definition T_UTF8NonAscii : ttype := 44.   (* parser/rfc5322_lexer.go:284 *)
Definition T_A : ttype := 45.   (* parser/rfc5322_lexer.go:285 *)
Definition T_B : ttype := 46.   (* parser/rfc5322_lexer.go:286 *)
Definition T_C : ttype := 47.   (* parser/rfc5322_lexer.go:287 *)
Definition T_D : ttype := 48.   (* parser/rfc5322_lexer.go:288 *)
Definition T_E : ttype := 49.   (* parser/rfc5322_lexer.go:289 *)
Definition T_F : ttype := 50.   (* parser/rfc5322_lexer.go:290 *)
Definition T_G : ttype := 51.   (* parser/rfc5322_lexer.go:291 *)
Definition T_H : ttype := 52.   (* parser/rfc5322_lexer.go:292 *)
Definition T_I : ttype := 53.   (* parser/rfc5322_lexer.go:293 *)
Definition T_J : ttype := 54.   (* parser/rfc5322_lexer.go:294 *)
Definition T_K : ttype := 55.   (* parser/rfc5322_lexer.go:295 *)
Definition T_L : ttype := 56.   (* parser/rfc5322_lexer.go:296 *)
Definition T_M : ttype := 57.   (* parser/rfc5322_lexer.go:297 *)
Definition T_N : ttype := 58.   (* parser/rfc5322_lexer.go:298 *)
Definition T_O : ttype := 59.   (* parser/rfc5322_lexer.go:299 *)
Definition T_P : ttype := 60.   (* parser/rfc5322_lexer.go:300 *)
Definition T_Q : ttype := 61.   (* parser/rfc5322_lexer.go:301 *)
Definition T_R : ttype := 62.   (* parser/rfc5322_lexer.go:302 *)
Definition T_S : ttype := 63.   (* parser/rfc5322_lexer.go:303 *)
Definition T_T : ttype := 64.   (* parser/rfc5322_lexer.go:304 *)
Definition T_U : ttype := 65.   (* parser/rfc5322_lexer.go:305 *)
Definition T_V : ttype := 66.   (* parser/rfc5322_lexer.go:306 *)
Definition T_W : ttype := 67.   (* parser/rfc5322_lexer.go:307 *)
Definition T_X : ttype := 68.   (* parser/rfc5322_lexer.go:308 *)
Definition T_Y : ttype := 69.   (* parser/rfc5322_lexer.go:309 *)
Definition T_Z : ttype := 70.   (* parser/rfc5322_lexer.go:310 *)
(** antlr.TokenEOF is -1 in the Go runtime; any value outside 1..70 will do here. *)
Definition T_EOF : ttype := 71.   (* parser/rfc5322_parser.go:638; antlr.TokenEOF is -1 in Go: another number that no rule has *)
(** antlr.TokenInvalidType is 0. *)
Definition T_Invalid : ttype := 0.   (* antlr.TokenInvalidType; only reached with parser.go:24 and a runtime that reports such tokens *)

(* /repo: parser.go:25: what the token stream holds; simplification: type and character only *)
Record tok : Type := mkTok { tt : ttype; tr : rune }.

(* /repo: RFC5322Parser.g4:158, :263, :264 (EOF) *)
Definition eof_tok : tok := mkTok T_EOF 0.

(* /repo: RFC5322Lexer.g4: the ranges of the lexer rules *)
Definition in_range (lo hi r : rune) : bool := (lo <=? r) && (r <=? hi).

(** RFC5322Lexer.g4:3-81, one line per lexer rule. *)
Definition lex_rune (r : rune) : option ttype :=
  if r =? 0 then Some T_U_00 (* :3  '\u0000' *)
  else if in_range 1 8 r then Some T_U_01_08 (* :4  '\u0001'..'\u0008' *)
  else if r =? 9 then Some T_TAB (* :5  '\t' *)
  else if r =? 10 then Some T_LF (* :6  '\n' *)
  else if r =? 11 then Some T_U_0B (* :7  '\u000B' *)
  else if r =? 12 then Some T_U_0C (* :8  '\u000C' *)
  else if r =? 13 then Some T_CR (* :9  '\r' *)
  else if in_range 14 31 r then Some T_U_0E_1F (* :10  '\u000E'..'\u001F' *)
  else if r =? 32 then Some T_SP (* :13  ' ' *)
  else if r =? 33 then Some T_Exclamation (* :14  '!' *)
  else if r =? 34 then Some T_DQuote (* :15  'DQUOTE' *)
  else if r =? 35 then Some T_Hash (* :16  '#' *)
  else if r =? 36 then Some T_Dollar (* :17  '$' *)
  else if r =? 37 then Some T_Percent (* :18  '%' *)
  else if r =? 38 then Some T_Ampersand (* :19  '&' *)
  else if r =? 39 then Some T_SQuote (* :20  '\'' *)
  else if r =? 40 then Some T_LParens (* :21  '(' *)
  else if r =? 41 then Some T_RParens (* :22  ')' *)
  else if r =? 42 then Some T_Asterisk (* :23  '*' *)
  else if r =? 43 then Some T_Plus (* :24  '+' *)
  else if r =? 44 then Some T_Comma (* :25  ',' *)
  else if r =? 45 then Some T_Minus (* :26  '-' *)
  else if r =? 46 then Some T_Period (* :27  '.' *)
  else if r =? 47 then Some T_Slash (* :28  '/' *)
  else if in_range 48 57 r then Some T_Digit (* :29  [0-9] *)
  else if r =? 58 then Some T_Colon (* :30  ':' *)
  else if r =? 59 then Some T_Semicolon (* :31  ';' *)
  else if r =? 60 then Some T_Less (* :32  '<' *)
  else if r =? 61 then Some T_Equal (* :33  '=' *)
  else if r =? 62 then Some T_Greater (* :34  '>' *)
  else if r =? 63 then Some T_Question (* :35  '?' *)
  else if r =? 64 then Some T_At (* :36  '@' *)
  else if r =? 91 then Some T_LBracket (* :38  '[' *)
  else if r =? 92 then Some T_Backslash (* :39  '\\' *)
  else if r =? 93 then Some T_RBracket (* :40  ']' *)
  else if r =? 94 then Some T_Caret (* :41  '^' *)
  else if r =? 95 then Some T_Underscore (* :42  '_' *)
  else if r =? 96 then Some T_Backtick (* :43  '`' *)
  else if r =? 123 then Some T_LCurly (* :45  '{' *)
  else if r =? 124 then Some T_Pipe (* :46  '|' *)
  else if r =? 125 then Some T_RCurly (* :47  '}' *)
  else if r =? 126 then Some T_Tilde (* :48  '~' *)
  else if r =? 127 then Some T_Delete (* :51  '\u007F' *)
  else if in_range 128 65535 r then Some T_UTF8NonAscii (* :54  '\u0080'..'\uFFFF' *)
  else if (r =? 65) || (r =? 97) then Some T_A (* :56  'A'|'a' *)
  else if (r =? 66) || (r =? 98) then Some T_B (* :57  'B'|'b' *)
  else if (r =? 67) || (r =? 99) then Some T_C (* :58  'C'|'c' *)
  else if (r =? 68) || (r =? 100) then Some T_D (* :59  'D'|'d' *)
  else if (r =? 69) || (r =? 101) then Some T_E (* :60  'E'|'e' *)
  else if (r =? 70) || (r =? 102) then Some T_F (* :61  'F'|'f' *)
  else if (r =? 71) || (r =? 103) then Some T_G (* :62  'G'|'g' *)
  else if (r =? 72) || (r =? 104) then Some T_H (* :63  'H'|'h' *)
  else if (r =? 73) || (r =? 105) then Some T_I (* :64  'I'|'i' *)
  else if (r =? 74) || (r =? 106) then Some T_J (* :65  'J'|'j' *)
  else if (r =? 75) || (r =? 107) then Some T_K (* :66  'K'|'k' *)
  else if (r =? 76) || (r =? 108) then Some T_L (* :67  'L'|'l' *)
  else if (r =? 77) || (r =? 109) then Some T_M (* :68  'M'|'m' *)
  else if (r =? 78) || (r =? 110) then Some T_N (* :69  'N'|'n' *)
  else if (r =? 79) || (r =? 111) then Some T_O (* :70  'O'|'o' *)
  else if (r =? 80) || (r =? 112) then Some T_P (* :71  'P'|'p' *)
  else if (r =? 81) || (r =? 113) then Some T_Q (* :72  'Q'|'q' *)
  else if (r =? 82) || (r =? 114) then Some T_R (* :73  'R'|'r' *)
  else if (r =? 83) || (r =? 115) then Some T_S (* :74  'S'|'s' *)
  else if (r =? 84) || (r =? 116) then Some T_T (* :75  'T'|'t' *)
  else if (r =? 85) || (r =? 117) then Some T_U (* :76  'U'|'u' *)
  else if (r =? 86) || (r =? 118) then Some T_V (* :77  'V'|'v' *)
  else if (r =? 87) || (r =? 119) then Some T_W (* :78  'W'|'w' *)
  else if (r =? 88) || (r =? 120) then Some T_X (* :79  'X'|'x' *)
  else if (r =? 89) || (r =? 121) then Some T_Y (* :80  'Y'|'y' *)
  else if (r =? 90) || (r =? 122) then Some T_Z (* :81  'Z'|'z' *)
  else None.

(** What the ANTLR lexer does with a character that matches no rule (only code points above
    U+FFFF).  The runtime is not part of the repository; the two behaviours known of the ANTLR
    runtimes are both modelled and every theorem is proved for both:
    [SkipBad]  - the character is dropped (and reported to the lexer's own console listener,
                 which parser.go leaves in place: only the parser's listeners are replaced);
    [EmitBad]  - a token of type 0 (TokenInvalidType) is emitted for it. *)
Inductive recovery : Type := SkipBad | EmitBad.

(* /repo: RFC5322Lexer.g4, all rules; parser/rfc5322_lexer.go:38-211 *)
Definition lex1 (m : recovery) (r : rune) : list tok :=
  match lex_rune r with
  | Some t => [mkTok t r]
  | None => match m with SkipBad => [] | EmitBad => [mkTok T_Invalid r] end
  end.

(** parser.go:24-25, 47-48: NewRFC5322Lexer over the input stream, CommonTokenStream; the
    stream ends with one EOF token. *)
Definition lex (m : recovery) (rs : list rune) : list tok :=
  flat_map (lex1 m) rs ++ [eof_tok].
