(** Generated by tools/mkcharset.py from /repo; do not edit. *)
From Verif Require Import Base Corr.
Local Open Scope N_scope.

(** ** /repo/src/characters_set/digits.rs *)
(** /repo/src/characters_set/digits.rs:26 *)
Definition Digits_DIGIT_ZERO : corr := linear [0xFF10] [0x30].
(** /repo/src/characters_set/digits.rs:28 *)
Definition Digits_DIGIT_ONE : corr := linear [0xFF11] [0x31].
(** /repo/src/characters_set/digits.rs:30 *)
Definition Digits_DIGIT_TWO : corr := linear [0xFF12] [0x32].
(** /repo/src/characters_set/digits.rs:32 *)
Definition Digits_DIGIT_THREE : corr := linear [0xFF13] [0x33].
(** /repo/src/characters_set/digits.rs:34 *)
Definition Digits_DIGIT_FOUR : corr := linear [0xFF14] [0x34].
(** /repo/src/characters_set/digits.rs:36 *)
Definition Digits_DIGIT_FIVE : corr := linear [0xFF15] [0x35].
(** /repo/src/characters_set/digits.rs:38 *)
Definition Digits_DIGIT_SIX : corr := linear [0xFF16] [0x36].
(** /repo/src/characters_set/digits.rs:40 *)
Definition Digits_DIGIT_SEVEN : corr := linear [0xFF17] [0x37].
(** /repo/src/characters_set/digits.rs:42 *)
Definition Digits_DIGIT_EIGHT : corr := linear [0xFF18] [0x38].
(** /repo/src/characters_set/digits.rs:44 *)
Definition Digits_DIGIT_NINE : corr := linear [0xFF19] [0x39].
(** /repo/src/characters_set/digits.rs:9-21: the chain of [+] in [items()]. *)
Definition DIGITS_terms : list corr :=
  [ Digits_DIGIT_ONE
  ; Digits_DIGIT_TWO
  ; Digits_DIGIT_THREE
  ; Digits_DIGIT_FOUR
  ; Digits_DIGIT_FIVE
  ; Digits_DIGIT_SIX
  ; Digits_DIGIT_SEVEN
  ; Digits_DIGIT_EIGHT
  ; Digits_DIGIT_NINE ].
Definition DIGITS : corr := fun o => add_chain o 0 Digits_DIGIT_ZERO DIGITS_terms.

(** ** /repo/src/characters_set/punctuations.rs *)
(** /repo/src/characters_set/punctuations.rs:49 *)
Definition Punctuations_EXCLAMATION_MARK : corr := linear [0xFF01] [0x21].
(** /repo/src/characters_set/punctuations.rs:51 *)
Definition Punctuations_QUOTATION_MARK : corr := linear [0x201D] [0x22].
(** /repo/src/characters_set/punctuations.rs:53 *)
Definition Punctuations_SHARP : corr := linear [0xFF03] [0x23].
(** /repo/src/characters_set/punctuations.rs:55 *)
Definition Punctuations_DOLLER_SIGN : corr := linear [0xFF04] [0x24].
(** /repo/src/characters_set/punctuations.rs:57 *)
Definition Punctuations_PERCENT_SIGN : corr := linear [0xFF05] [0x25].
(** /repo/src/characters_set/punctuations.rs:59 *)
Definition Punctuations_AMPERSAND : corr := linear [0xFF06] [0x26].
(** /repo/src/characters_set/punctuations.rs:61 *)
Definition Punctuations_APOSTROPHE : corr := linear [0x2019] [0x27].
(** /repo/src/characters_set/punctuations.rs:63 *)
Definition Punctuations_LEFT_PARENTHESIS : corr := linear [0xFF08] [0x28].
(** /repo/src/characters_set/punctuations.rs:65 *)
Definition Punctuations_RIGHT_PARENTHESIS : corr := linear [0xFF09] [0x29].
(** /repo/src/characters_set/punctuations.rs:67 *)
Definition Punctuations_ASTERISK : corr := linear [0xFF0A] [0x2A].
(** /repo/src/characters_set/punctuations.rs:69 *)
Definition Punctuations_PLUS_SIGN : corr := linear [0xFF0B] [0x2B].
(** /repo/src/characters_set/punctuations.rs:71 *)
Definition Punctuations_COMMA : corr := linear [0xFF0C] [0x2C].
(** /repo/src/characters_set/punctuations.rs:73 *)
Definition Punctuations_HYPHEN_MINUS : corr := linear [0xFF0D] [0x2D].
(** /repo/src/characters_set/punctuations.rs:75 *)
Definition Punctuations_FULL_STOP : corr := linear [0xFF0E] [0x2E].
(** /repo/src/characters_set/punctuations.rs:77 *)
Definition Punctuations_SLASH : corr := linear [0xFF0F] [0x2F].
(** /repo/src/characters_set/punctuations.rs:80 *)
Definition Punctuations_COLON : corr := linear [0xFF1A] [0x3A].
(** /repo/src/characters_set/punctuations.rs:82 *)
Definition Punctuations_SEMI_COLON : corr := linear [0xFF1B] [0x3B].
(** /repo/src/characters_set/punctuations.rs:84 *)
Definition Punctuations_LESS_THAN_SIGN : corr := linear [0xFF1C] [0x3C].
(** /repo/src/characters_set/punctuations.rs:86 *)
Definition Punctuations_EQUAL_SIGN : corr := linear [0xFF1D] [0x3D].
(** /repo/src/characters_set/punctuations.rs:88 *)
Definition Punctuations_GREATER_THAN_SIGN : corr := linear [0xFF1E] [0x3E].
(** /repo/src/characters_set/punctuations.rs:90 *)
Definition Punctuations_QUESTION_MARK : corr := linear [0xFF1F] [0x3F].
(** /repo/src/characters_set/punctuations.rs:92 *)
Definition Punctuations_AT_SIGN : corr := linear [0xFF20] [0x40].
(** /repo/src/characters_set/punctuations.rs:95 *)
Definition Punctuations_LEFT_SQUARE_BRACKET : corr := linear [0xFF3B] [0x5B].
(** /repo/src/characters_set/punctuations.rs:97 *)
Definition Punctuations_BACKSLASH : corr := linear [0xFF3C] [0x5C].
(** /repo/src/characters_set/punctuations.rs:99 *)
Definition Punctuations_YEN_SIGN : corr := linear [0xFFE5] [0xA5].
(** /repo/src/characters_set/punctuations.rs:101 *)
Definition Punctuations_RIGHT_SQUARE_BRACKET : corr := linear [0xFF3D] [0x5D].
(** /repo/src/characters_set/punctuations.rs:103 *)
Definition Punctuations_CIRCUMFLEX_ACCENT : corr := linear [0xFF3E] [0x5E].
(** /repo/src/characters_set/punctuations.rs:105 *)
Definition Punctuations_LOW_LINE : corr := linear [0xFF3F] [0x5F].
(** /repo/src/characters_set/punctuations.rs:107 *)
Definition Punctuations_GRAVE_ACCENT : corr := linear [0xFF40] [0x60].
(** /repo/src/characters_set/punctuations.rs:110 *)
Definition Punctuations_LEFT_CURLY_BRACKET : corr := linear [0xFF5B] [0x7B].
(** /repo/src/characters_set/punctuations.rs:112 *)
Definition Punctuations_VERTICAL_BAR : corr := linear [0xFF5C] [0x7C].
(** /repo/src/characters_set/punctuations.rs:114 *)
Definition Punctuations_RIGHT_CURLY_BRACKET : corr := linear [0xFF5D] [0x7D].
(** /repo/src/characters_set/punctuations.rs:116 *)
Definition Punctuations_TILDE : corr := linear [0x301C] [0x7E].
(** /repo/src/characters_set/punctuations.rs:9-44: the chain of [+] in [items()]. *)
Definition PUNCTUATIONS_terms : list corr :=
  [ Punctuations_QUOTATION_MARK
  ; Punctuations_SHARP
  ; Punctuations_DOLLER_SIGN
  ; Punctuations_PERCENT_SIGN
  ; Punctuations_AMPERSAND
  ; Punctuations_APOSTROPHE
  ; Punctuations_LEFT_PARENTHESIS
  ; Punctuations_RIGHT_PARENTHESIS
  ; Punctuations_ASTERISK
  ; Punctuations_PLUS_SIGN
  ; Punctuations_COMMA
  ; Punctuations_HYPHEN_MINUS
  ; Punctuations_FULL_STOP
  ; Punctuations_SLASH
  ; Punctuations_COLON
  ; Punctuations_SEMI_COLON
  ; Punctuations_LESS_THAN_SIGN
  ; Punctuations_EQUAL_SIGN
  ; Punctuations_GREATER_THAN_SIGN
  ; Punctuations_QUESTION_MARK
  ; Punctuations_AT_SIGN
  ; Punctuations_LEFT_SQUARE_BRACKET
  ; Punctuations_BACKSLASH
  ; Punctuations_YEN_SIGN
  ; Punctuations_RIGHT_SQUARE_BRACKET
  ; Punctuations_CIRCUMFLEX_ACCENT
  ; Punctuations_LOW_LINE
  ; Punctuations_GRAVE_ACCENT
  ; Punctuations_LEFT_CURLY_BRACKET
  ; Punctuations_VERTICAL_BAR
  ; Punctuations_RIGHT_CURLY_BRACKET
  ; Punctuations_TILDE ].
Definition PUNCTUATIONS : corr := fun o => add_chain o 0 Punctuations_EXCLAMATION_MARK PUNCTUATIONS_terms.

(** ** /repo/src/characters_set/alphabets.rs *)
(** /repo/src/characters_set/alphabets.rs:68 *)
Definition Alphabets_CAPITAL_LETTER_A : corr := linear [0xFF21] [0x41].
(** /repo/src/characters_set/alphabets.rs:70 *)
Definition Alphabets_CAPITAL_LETTER_B : corr := linear [0xFF22] [0x42].
(** /repo/src/characters_set/alphabets.rs:72 *)
Definition Alphabets_CAPITAL_LETTER_C : corr := linear [0xFF23] [0x43].
(** /repo/src/characters_set/alphabets.rs:74 *)
Definition Alphabets_CAPITAL_LETTER_D : corr := linear [0xFF24] [0x44].
(** /repo/src/characters_set/alphabets.rs:76 *)
Definition Alphabets_CAPITAL_LETTER_E : corr := linear [0xFF25] [0x45].
(** /repo/src/characters_set/alphabets.rs:78 *)
Definition Alphabets_CAPITAL_LETTER_F : corr := linear [0xFF26] [0x46].
(** /repo/src/characters_set/alphabets.rs:80 *)
Definition Alphabets_CAPITAL_LETTER_G : corr := linear [0xFF27] [0x47].
(** /repo/src/characters_set/alphabets.rs:82 *)
Definition Alphabets_CAPITAL_LETTER_H : corr := linear [0xFF28] [0x48].
(** /repo/src/characters_set/alphabets.rs:84 *)
Definition Alphabets_CAPITAL_LETTER_I : corr := linear [0xFF29] [0x49].
(** /repo/src/characters_set/alphabets.rs:86 *)
Definition Alphabets_CAPITAL_LETTER_J : corr := linear [0xFF2A] [0x4A].
(** /repo/src/characters_set/alphabets.rs:88 *)
Definition Alphabets_CAPITAL_LETTER_K : corr := linear [0xFF2B] [0x4B].
(** /repo/src/characters_set/alphabets.rs:90 *)
Definition Alphabets_CAPITAL_LETTER_L : corr := linear [0xFF2C] [0x4C].
(** /repo/src/characters_set/alphabets.rs:92 *)
Definition Alphabets_CAPITAL_LETTER_M : corr := linear [0xFF2D] [0x4D].
(** /repo/src/characters_set/alphabets.rs:94 *)
Definition Alphabets_CAPITAL_LETTER_N : corr := linear [0xFF2E] [0x4E].
(** /repo/src/characters_set/alphabets.rs:96 *)
Definition Alphabets_CAPITAL_LETTER_O : corr := linear [0xFF2F] [0x4F].
(** /repo/src/characters_set/alphabets.rs:98 *)
Definition Alphabets_CAPITAL_LETTER_P : corr := linear [0xFF30] [0x50].
(** /repo/src/characters_set/alphabets.rs:100 *)
Definition Alphabets_CAPITAL_LETTER_Q : corr := linear [0xFF31] [0x51].
(** /repo/src/characters_set/alphabets.rs:102 *)
Definition Alphabets_CAPITAL_LETTER_R : corr := linear [0xFF32] [0x52].
(** /repo/src/characters_set/alphabets.rs:104 *)
Definition Alphabets_CAPITAL_LETTER_S : corr := linear [0xFF33] [0x53].
(** /repo/src/characters_set/alphabets.rs:106 *)
Definition Alphabets_CAPITAL_LETTER_T : corr := linear [0xFF34] [0x54].
(** /repo/src/characters_set/alphabets.rs:108 *)
Definition Alphabets_CAPITAL_LETTER_U : corr := linear [0xFF35] [0x55].
(** /repo/src/characters_set/alphabets.rs:110 *)
Definition Alphabets_CAPITAL_LETTER_V : corr := linear [0xFF36] [0x56].
(** /repo/src/characters_set/alphabets.rs:112 *)
Definition Alphabets_CAPITAL_LETTER_W : corr := linear [0xFF37] [0x57].
(** /repo/src/characters_set/alphabets.rs:114 *)
Definition Alphabets_CAPITAL_LETTER_X : corr := linear [0xFF38] [0x58].
(** /repo/src/characters_set/alphabets.rs:116 *)
Definition Alphabets_CAPITAL_LETTER_Y : corr := linear [0xFF39] [0x59].
(** /repo/src/characters_set/alphabets.rs:118 *)
Definition Alphabets_CAPITAL_LETTER_Z : corr := linear [0xFF3A] [0x5A].
(** /repo/src/characters_set/alphabets.rs:121 *)
Definition Alphabets_SMALL_LETTER_A : corr := linear [0xFF41] [0x61].
(** /repo/src/characters_set/alphabets.rs:123 *)
Definition Alphabets_SMALL_LETTER_B : corr := linear [0xFF42] [0x62].
(** /repo/src/characters_set/alphabets.rs:125 *)
Definition Alphabets_SMALL_LETTER_C : corr := linear [0xFF43] [0x63].
(** /repo/src/characters_set/alphabets.rs:127 *)
Definition Alphabets_SMALL_LETTER_D : corr := linear [0xFF44] [0x64].
(** /repo/src/characters_set/alphabets.rs:129 *)
Definition Alphabets_SMALL_LETTER_E : corr := linear [0xFF45] [0x65].
(** /repo/src/characters_set/alphabets.rs:131 *)
Definition Alphabets_SMALL_LETTER_F : corr := linear [0xFF46] [0x66].
(** /repo/src/characters_set/alphabets.rs:133 *)
Definition Alphabets_SMALL_LETTER_G : corr := linear [0xFF47] [0x67].
(** /repo/src/characters_set/alphabets.rs:135 *)
Definition Alphabets_SMALL_LETTER_H : corr := linear [0xFF48] [0x68].
(** /repo/src/characters_set/alphabets.rs:137 *)
Definition Alphabets_SMALL_LETTER_I : corr := linear [0xFF49] [0x69].
(** /repo/src/characters_set/alphabets.rs:139 *)
Definition Alphabets_SMALL_LETTER_J : corr := linear [0xFF4A] [0x6A].
(** /repo/src/characters_set/alphabets.rs:141 *)
Definition Alphabets_SMALL_LETTER_K : corr := linear [0xFF4B] [0x6B].
(** /repo/src/characters_set/alphabets.rs:143 *)
Definition Alphabets_SMALL_LETTER_L : corr := linear [0xFF4C] [0x6C].
(** /repo/src/characters_set/alphabets.rs:145 *)
Definition Alphabets_SMALL_LETTER_M : corr := linear [0xFF4D] [0x6D].
(** /repo/src/characters_set/alphabets.rs:147 *)
Definition Alphabets_SMALL_LETTER_N : corr := linear [0xFF4E] [0x6E].
(** /repo/src/characters_set/alphabets.rs:149 *)
Definition Alphabets_SMALL_LETTER_O : corr := linear [0xFF4F] [0x6F].
(** /repo/src/characters_set/alphabets.rs:151 *)
Definition Alphabets_SMALL_LETTER_P : corr := linear [0xFF50] [0x70].
(** /repo/src/characters_set/alphabets.rs:153 *)
Definition Alphabets_SMALL_LETTER_Q : corr := linear [0xFF51] [0x71].
(** /repo/src/characters_set/alphabets.rs:155 *)
Definition Alphabets_SMALL_LETTER_R : corr := linear [0xFF52] [0x72].
(** /repo/src/characters_set/alphabets.rs:157 *)
Definition Alphabets_SMALL_LETTER_S : corr := linear [0xFF53] [0x73].
(** /repo/src/characters_set/alphabets.rs:159 *)
Definition Alphabets_SMALL_LETTER_T : corr := linear [0xFF54] [0x74].
(** /repo/src/characters_set/alphabets.rs:161 *)
Definition Alphabets_SMALL_LETTER_U : corr := linear [0xFF55] [0x75].
(** /repo/src/characters_set/alphabets.rs:163 *)
Definition Alphabets_SMALL_LETTER_V : corr := linear [0xFF56] [0x76].
(** /repo/src/characters_set/alphabets.rs:165 *)
Definition Alphabets_SMALL_LETTER_W : corr := linear [0xFF57] [0x77].
(** /repo/src/characters_set/alphabets.rs:167 *)
Definition Alphabets_SMALL_LETTER_X : corr := linear [0xFF58] [0x78].
(** /repo/src/characters_set/alphabets.rs:169 *)
Definition Alphabets_SMALL_LETTER_Y : corr := linear [0xFF59] [0x79].
(** /repo/src/characters_set/alphabets.rs:171 *)
Definition Alphabets_SMALL_LETTER_Z : corr := linear [0xFF5A] [0x7A].
(** /repo/src/characters_set/alphabets.rs:9-63: the chain of [+] in [items()]. *)
Definition ALPHABETS_terms : list corr :=
  [ Alphabets_CAPITAL_LETTER_B
  ; Alphabets_CAPITAL_LETTER_C
  ; Alphabets_CAPITAL_LETTER_D
  ; Alphabets_CAPITAL_LETTER_E
  ; Alphabets_CAPITAL_LETTER_F
  ; Alphabets_CAPITAL_LETTER_G
  ; Alphabets_CAPITAL_LETTER_H
  ; Alphabets_CAPITAL_LETTER_I
  ; Alphabets_CAPITAL_LETTER_J
  ; Alphabets_CAPITAL_LETTER_K
  ; Alphabets_CAPITAL_LETTER_L
  ; Alphabets_CAPITAL_LETTER_M
  ; Alphabets_CAPITAL_LETTER_N
  ; Alphabets_CAPITAL_LETTER_O
  ; Alphabets_CAPITAL_LETTER_P
  ; Alphabets_CAPITAL_LETTER_Q
  ; Alphabets_CAPITAL_LETTER_R
  ; Alphabets_CAPITAL_LETTER_S
  ; Alphabets_CAPITAL_LETTER_T
  ; Alphabets_CAPITAL_LETTER_U
  ; Alphabets_CAPITAL_LETTER_V
  ; Alphabets_CAPITAL_LETTER_W
  ; Alphabets_CAPITAL_LETTER_X
  ; Alphabets_CAPITAL_LETTER_Y
  ; Alphabets_CAPITAL_LETTER_Z
  ; Alphabets_SMALL_LETTER_A
  ; Alphabets_SMALL_LETTER_B
  ; Alphabets_SMALL_LETTER_C
  ; Alphabets_SMALL_LETTER_D
  ; Alphabets_SMALL_LETTER_E
  ; Alphabets_SMALL_LETTER_F
  ; Alphabets_SMALL_LETTER_G
  ; Alphabets_SMALL_LETTER_H
  ; Alphabets_SMALL_LETTER_I
  ; Alphabets_SMALL_LETTER_J
  ; Alphabets_SMALL_LETTER_K
  ; Alphabets_SMALL_LETTER_L
  ; Alphabets_SMALL_LETTER_M
  ; Alphabets_SMALL_LETTER_N
  ; Alphabets_SMALL_LETTER_O
  ; Alphabets_SMALL_LETTER_P
  ; Alphabets_SMALL_LETTER_Q
  ; Alphabets_SMALL_LETTER_R
  ; Alphabets_SMALL_LETTER_S
  ; Alphabets_SMALL_LETTER_T
  ; Alphabets_SMALL_LETTER_U
  ; Alphabets_SMALL_LETTER_V
  ; Alphabets_SMALL_LETTER_W
  ; Alphabets_SMALL_LETTER_X
  ; Alphabets_SMALL_LETTER_Y
  ; Alphabets_SMALL_LETTER_Z ].
Definition ALPHABETS : corr := fun o => add_chain o 0 Alphabets_CAPITAL_LETTER_A ALPHABETS_terms.

(** ** /repo/src/characters_set/kanas.rs *)
(** /repo/src/characters_set/kanas.rs:77 *)
Definition Kanas_KATAKANA_LETTER_SMALL_A : corr := linear [0xFF67] [0x30A1].
(** /repo/src/characters_set/kanas.rs:78 *)
Definition Kanas_KATAKANA_LETTER_A : corr := linear [0xFF71] [0x30A2].
(** /repo/src/characters_set/kanas.rs:79 *)
Definition Kanas_KATAKANA_LETTER_SMALL_I : corr := linear [0xFF68] [0x30A3].
(** /repo/src/characters_set/kanas.rs:80 *)
Definition Kanas_KATAKANA_LETTER_I : corr := linear [0xFF72] [0x30A4].
(** /repo/src/characters_set/kanas.rs:81 *)
Definition Kanas_KATAKANA_LETTER_SMALL_U : corr := linear [0xFF69] [0x30A5].
(** /repo/src/characters_set/kanas.rs:82 *)
Definition Kanas_KATAKANA_LETTER_U : corr := linear [0xFF73] [0x30A6].
(** /repo/src/characters_set/kanas.rs:83 *)
Definition Kanas_KATAKANA_LETTER_SMALL_E : corr := linear [0xFF6A] [0x30A7].
(** /repo/src/characters_set/kanas.rs:84 *)
Definition Kanas_KATAKANA_LETTER_E : corr := linear [0xFF74] [0x30A8].
(** /repo/src/characters_set/kanas.rs:85 *)
Definition Kanas_KATAKANA_LETTER_SMALL_O : corr := linear [0xFF6B] [0x30A9].
(** /repo/src/characters_set/kanas.rs:86 *)
Definition Kanas_KATAKANA_LETTER_O : corr := linear [0xFF75] [0x30AA].
(** /repo/src/characters_set/kanas.rs:88 *)
Definition Kanas_KATAKANA_LETTER_KA : corr := linear [0xFF76] [0x30AB].
(** /repo/src/characters_set/kanas.rs:89 *)
Definition Kanas_KATAKANA_LETTER_KI : corr := linear [0xFF77] [0x30AD].
(** /repo/src/characters_set/kanas.rs:90 *)
Definition Kanas_KATAKANA_LETTER_KU : corr := linear [0xFF78] [0x30AF].
(** /repo/src/characters_set/kanas.rs:91 *)
Definition Kanas_KATAKANA_LETTER_KE : corr := linear [0xFF79] [0x30B1].
(** /repo/src/characters_set/kanas.rs:92 *)
Definition Kanas_KATAKANA_LETTER_KO : corr := linear [0xFF7A] [0x30B3].
(** /repo/src/characters_set/kanas.rs:94 *)
Definition Kanas_KATAKANA_LETTER_SA : corr := linear [0xFF7B] [0x30B5].
(** /repo/src/characters_set/kanas.rs:95 *)
Definition Kanas_KATAKANA_LETTER_SI : corr := linear [0xFF7C] [0x30B7].
(** /repo/src/characters_set/kanas.rs:96 *)
Definition Kanas_KATAKANA_LETTER_SU : corr := linear [0xFF7D] [0x30B9].
(** /repo/src/characters_set/kanas.rs:97 *)
Definition Kanas_KATAKANA_LETTER_SE : corr := linear [0xFF7E] [0x30BB].
(** /repo/src/characters_set/kanas.rs:98 *)
Definition Kanas_KATAKANA_LETTER_SO : corr := linear [0xFF7F] [0x30BD].
(** /repo/src/characters_set/kanas.rs:100 *)
Definition Kanas_KATAKANA_LETTER_TA : corr := linear [0xFF80] [0x30BF].
(** /repo/src/characters_set/kanas.rs:101 *)
Definition Kanas_KATAKANA_LETTER_TI : corr := linear [0xFF81] [0x30C1].
(** /repo/src/characters_set/kanas.rs:102 *)
Definition Kanas_KATAKANA_LETTER_SMALL_TU : corr := linear [0xFF6F] [0x30C3].
(** /repo/src/characters_set/kanas.rs:103 *)
Definition Kanas_KATAKANA_LETTER_TU : corr := linear [0xFF82] [0x30C4].
(** /repo/src/characters_set/kanas.rs:104 *)
Definition Kanas_KATAKANA_LETTER_TE : corr := linear [0xFF83] [0x30C6].
(** /repo/src/characters_set/kanas.rs:105 *)
Definition Kanas_KATAKANA_LETTER_TO : corr := linear [0xFF84] [0x30C8].
(** /repo/src/characters_set/kanas.rs:107 *)
Definition Kanas_KATAKANA_LETTER_NA : corr := linear [0xFF85] [0x30CA].
(** /repo/src/characters_set/kanas.rs:108 *)
Definition Kanas_KATAKANA_LETTER_NI : corr := linear [0xFF86] [0x30CB].
(** /repo/src/characters_set/kanas.rs:109 *)
Definition Kanas_KATAKANA_LETTER_NU : corr := linear [0xFF87] [0x30CC].
(** /repo/src/characters_set/kanas.rs:110 *)
Definition Kanas_KATAKANA_LETTER_NE : corr := linear [0xFF88] [0x30CD].
(** /repo/src/characters_set/kanas.rs:111 *)
Definition Kanas_KATAKANA_LETTER_NO : corr := linear [0xFF89] [0x30CE].
(** /repo/src/characters_set/kanas.rs:113 *)
Definition Kanas_KATAKANA_LETTER_HA : corr := linear [0xFF8A] [0x30CF].
(** /repo/src/characters_set/kanas.rs:114 *)
Definition Kanas_KATAKANA_LETTER_HI : corr := linear [0xFF8B] [0x30D2].
(** /repo/src/characters_set/kanas.rs:115 *)
Definition Kanas_KATAKANA_LETTER_HU : corr := linear [0xFF8C] [0x30D5].
(** /repo/src/characters_set/kanas.rs:116 *)
Definition Kanas_KATAKANA_LETTER_HE : corr := linear [0xFF8D] [0x30D8].
(** /repo/src/characters_set/kanas.rs:117 *)
Definition Kanas_KATAKANA_LETTER_HO : corr := linear [0xFF8E] [0x30DB].
(** /repo/src/characters_set/kanas.rs:119 *)
Definition Kanas_KATAKANA_LETTER_MA : corr := linear [0xFF8F] [0x30DE].
(** /repo/src/characters_set/kanas.rs:120 *)
Definition Kanas_KATAKANA_LETTER_MI : corr := linear [0xFF90] [0x30DF].
(** /repo/src/characters_set/kanas.rs:121 *)
Definition Kanas_KATAKANA_LETTER_MU : corr := linear [0xFF91] [0x30E0].
(** /repo/src/characters_set/kanas.rs:122 *)
Definition Kanas_KATAKANA_LETTER_ME : corr := linear [0xFF92] [0x30E1].
(** /repo/src/characters_set/kanas.rs:123 *)
Definition Kanas_KATAKANA_LETTER_MO : corr := linear [0xFF93] [0x30E2].
(** /repo/src/characters_set/kanas.rs:125 *)
Definition Kanas_KATAKANA_LETTER_SMALL_YA : corr := linear [0xFF6C] [0x30E3].
(** /repo/src/characters_set/kanas.rs:126 *)
Definition Kanas_KATAKANA_LETTER_YA : corr := linear [0xFF94] [0x30E4].
(** /repo/src/characters_set/kanas.rs:127 *)
Definition Kanas_KATAKANA_LETTER_SMALL_YU : corr := linear [0xFF6D] [0x30E5].
(** /repo/src/characters_set/kanas.rs:128 *)
Definition Kanas_KATAKANA_LETTER_YU : corr := linear [0xFF95] [0x30E6].
(** /repo/src/characters_set/kanas.rs:129 *)
Definition Kanas_KATAKANA_LETTER_SMALL_YO : corr := linear [0xFF6E] [0x30E7].
(** /repo/src/characters_set/kanas.rs:130 *)
Definition Kanas_KATAKANA_LETTER_YO : corr := linear [0xFF96] [0x30E8].
(** /repo/src/characters_set/kanas.rs:132 *)
Definition Kanas_KATAKANA_LETTER_RA : corr := linear [0xFF97] [0x30E9].
(** /repo/src/characters_set/kanas.rs:133 *)
Definition Kanas_KATAKANA_LETTER_RI : corr := linear [0xFF98] [0x30EA].
(** /repo/src/characters_set/kanas.rs:134 *)
Definition Kanas_KATAKANA_LETTER_RU : corr := linear [0xFF99] [0x30EB].
(** /repo/src/characters_set/kanas.rs:135 *)
Definition Kanas_KATAKANA_LETTER_RE : corr := linear [0xFF9A] [0x30EC].
(** /repo/src/characters_set/kanas.rs:136 *)
Definition Kanas_KATAKANA_LETTER_RO : corr := linear [0xFF9B] [0x30ED].
(** /repo/src/characters_set/kanas.rs:138 *)
Definition Kanas_KATAKANA_LETTER_WA : corr := linear [0xFF9C] [0x30EF].
(** /repo/src/characters_set/kanas.rs:139 *)
Definition Kanas_KATAKANA_LETTER_WO : corr := linear [0xFF66] [0x30F2].
(** /repo/src/characters_set/kanas.rs:140 *)
Definition Kanas_KATAKANA_LETTER_N : corr := linear [0xFF9D] [0x30F3].
(** /repo/src/characters_set/kanas.rs:142 *)
Definition Kanas_IDEOGRAPHIC_COMMA : corr := linear [0xFF64] [0x3001].
(** /repo/src/characters_set/kanas.rs:143 *)
Definition Kanas_IDEOGRAPHIC_FULL_STOP : corr := linear [0xFF61] [0x3002].
(** /repo/src/characters_set/kanas.rs:144 *)
Definition Kanas_KATAKANA_MIDDLE_DOT : corr := linear [0xFF65] [0x30FB].
(** /repo/src/characters_set/kanas.rs:145 *)
Definition Kanas_LEFT_CORNER_BRACKET : corr := linear [0xFF62] [0x300C].
(** /repo/src/characters_set/kanas.rs:146 *)
Definition Kanas_RIGHT_CORNER_BRACKET : corr := linear [0xFF63] [0x300D].
(** /repo/src/characters_set/kanas.rs:148 *)
Definition Kanas_IDEOGRAPHIC_SPACE : corr := linear [0x3000] [0x20].
(** /repo/src/characters_set/kanas.rs:9-72: the chain of [+] in [items()]. *)
Definition KANAS_terms : list corr :=
  [ Kanas_KATAKANA_LETTER_A
  ; Kanas_KATAKANA_LETTER_SMALL_I
  ; Kanas_KATAKANA_LETTER_I
  ; Kanas_KATAKANA_LETTER_SMALL_U
  ; Kanas_KATAKANA_LETTER_U
  ; Kanas_KATAKANA_LETTER_SMALL_E
  ; Kanas_KATAKANA_LETTER_E
  ; Kanas_KATAKANA_LETTER_SMALL_O
  ; Kanas_KATAKANA_LETTER_O
  ; Kanas_KATAKANA_LETTER_KA
  ; Kanas_KATAKANA_LETTER_KI
  ; Kanas_KATAKANA_LETTER_KU
  ; Kanas_KATAKANA_LETTER_KE
  ; Kanas_KATAKANA_LETTER_KO
  ; Kanas_KATAKANA_LETTER_SA
  ; Kanas_KATAKANA_LETTER_SI
  ; Kanas_KATAKANA_LETTER_SU
  ; Kanas_KATAKANA_LETTER_SE
  ; Kanas_KATAKANA_LETTER_SO
  ; Kanas_KATAKANA_LETTER_TA
  ; Kanas_KATAKANA_LETTER_TI
  ; Kanas_KATAKANA_LETTER_SMALL_TU
  ; Kanas_KATAKANA_LETTER_TU
  ; Kanas_KATAKANA_LETTER_TE
  ; Kanas_KATAKANA_LETTER_TO
  ; Kanas_KATAKANA_LETTER_NA
  ; Kanas_KATAKANA_LETTER_NI
  ; Kanas_KATAKANA_LETTER_NU
  ; Kanas_KATAKANA_LETTER_NE
  ; Kanas_KATAKANA_LETTER_NO
  ; Kanas_KATAKANA_LETTER_HA
  ; Kanas_KATAKANA_LETTER_HI
  ; Kanas_KATAKANA_LETTER_HU
  ; Kanas_KATAKANA_LETTER_HE
  ; Kanas_KATAKANA_LETTER_HO
  ; Kanas_KATAKANA_LETTER_MA
  ; Kanas_KATAKANA_LETTER_MI
  ; Kanas_KATAKANA_LETTER_MU
  ; Kanas_KATAKANA_LETTER_ME
  ; Kanas_KATAKANA_LETTER_MO
  ; Kanas_KATAKANA_LETTER_SMALL_YA
  ; Kanas_KATAKANA_LETTER_YA
  ; Kanas_KATAKANA_LETTER_SMALL_YU
  ; Kanas_KATAKANA_LETTER_YU
  ; Kanas_KATAKANA_LETTER_SMALL_YO
  ; Kanas_KATAKANA_LETTER_YO
  ; Kanas_KATAKANA_LETTER_RA
  ; Kanas_KATAKANA_LETTER_RI
  ; Kanas_KATAKANA_LETTER_RU
  ; Kanas_KATAKANA_LETTER_RE
  ; Kanas_KATAKANA_LETTER_RO
  ; Kanas_KATAKANA_LETTER_WA
  ; Kanas_KATAKANA_LETTER_WO
  ; Kanas_KATAKANA_LETTER_N
  ; Kanas_IDEOGRAPHIC_COMMA
  ; Kanas_IDEOGRAPHIC_FULL_STOP
  ; Kanas_KATAKANA_MIDDLE_DOT
  ; Kanas_LEFT_CORNER_BRACKET
  ; Kanas_RIGHT_CORNER_BRACKET
  ; Kanas_IDEOGRAPHIC_SPACE ].
Definition KANAS : corr := fun o => add_chain o 0 Kanas_KATAKANA_LETTER_SMALL_A KANAS_terms.

(** ** /repo/src/characters_set/cjk_compatibilities.rs *)
(** /repo/src/characters_set/cjk_compatibilities.rs:279 *)
Definition Cjk_SQUARE_APAATO : corr := linear [0x3300] [0x30A2; 0x30D1; 0x30FC; 0x30C8].
(** /repo/src/characters_set/cjk_compatibilities.rs:280 *)
Definition Cjk_SQUARE_ARUHUA : corr := linear [0x3301] [0x30A2; 0x30EB; 0x30D5; 0x30A1].
(** /repo/src/characters_set/cjk_compatibilities.rs:281 *)
Definition Cjk_SQUARE_ANPEA : corr := linear [0x3302] [0x30A2; 0x30F3; 0x30DA; 0x30A2].
(** /repo/src/characters_set/cjk_compatibilities.rs:282 *)
Definition Cjk_SQUARE_AARU : corr := linear [0x3303] [0x30A2; 0x30FC; 0x30EB].
(** /repo/src/characters_set/cjk_compatibilities.rs:283 *)
Definition Cjk_SQUARE_ININGU : corr := linear [0x3304] [0x30A4; 0x30CB; 0x30F3; 0x30B0].
(** /repo/src/characters_set/cjk_compatibilities.rs:284 *)
Definition Cjk_SQUARE_INTI : corr := linear [0x3305] [0x30A4; 0x30F3; 0x30C1].
(** /repo/src/characters_set/cjk_compatibilities.rs:285 *)
Definition Cjk_SQUARE_UON : corr := linear [0x3306] [0x30A6; 0x30A9; 0x30F3].
(** /repo/src/characters_set/cjk_compatibilities.rs:286 *)
Definition Cjk_SQUARE_ESUKUUDO : corr := linear [0x3307] [0x30A8; 0x30B9; 0x30AF; 0x30FC; 0x30C9].
(** /repo/src/characters_set/cjk_compatibilities.rs:287 *)
Definition Cjk_SQUARE_EEKAA : corr := linear [0x3308] [0x30A8; 0x30FC; 0x30AB; 0x30FC].
(** /repo/src/characters_set/cjk_compatibilities.rs:288 *)
Definition Cjk_SQUARE_ONSU : corr := linear [0x3309] [0x30AA; 0x30F3; 0x30B9].
(** /repo/src/characters_set/cjk_compatibilities.rs:289 *)
Definition Cjk_SQUARE_OOMU : corr := linear [0x330A] [0x30AA; 0x30FC; 0x30E0].
(** /repo/src/characters_set/cjk_compatibilities.rs:290 *)
Definition Cjk_SQUARE_KAIRI : corr := linear [0x330B] [0x30AB; 0x30A4; 0x30EA].
(** /repo/src/characters_set/cjk_compatibilities.rs:291 *)
Definition Cjk_SQUARE_KARATTO : corr := linear [0x330C] [0x30AB; 0x30E9; 0x30C3; 0x30C8].
(** /repo/src/characters_set/cjk_compatibilities.rs:292 *)
Definition Cjk_SQUARE_KARORII : corr := linear [0x330D] [0x30AB; 0x30ED; 0x30EA; 0x30FC].
(** /repo/src/characters_set/cjk_compatibilities.rs:293 *)
Definition Cjk_SQUARE_GARON : corr := linear [0x330E] [0x30AC; 0x30ED; 0x30F3].
(** /repo/src/characters_set/cjk_compatibilities.rs:294 *)
Definition Cjk_SQUARE_GANMA : corr := linear [0x330F] [0x30AC; 0x30F3; 0x30DE].
(** /repo/src/characters_set/cjk_compatibilities.rs:295 *)
Definition Cjk_SQUARE_GIGA : corr := linear [0x3310] [0x30AE; 0x30AC].
(** /repo/src/characters_set/cjk_compatibilities.rs:296 *)
Definition Cjk_SQUARE_GINII : corr := linear [0x3311] [0x30AE; 0x30CB; 0x30FC].
(** /repo/src/characters_set/cjk_compatibilities.rs:297 *)
Definition Cjk_SQUARE_KYURII : corr := linear [0x3312] [0x30AD; 0x30E5; 0x30EA; 0x30FC].
(** /repo/src/characters_set/cjk_compatibilities.rs:298 *)
Definition Cjk_SQUARE_GIRUDAA : corr := linear [0x3313] [0x30AE; 0x30EB; 0x30C0; 0x30FC].
(** /repo/src/characters_set/cjk_compatibilities.rs:299 *)
Definition Cjk_SQUARE_KIRO : corr := linear [0x3314] [0x30AD; 0x30ED].
(** /repo/src/characters_set/cjk_compatibilities.rs:300 *)
Definition Cjk_SQUARE_KIROGURAMU : corr := linear [0x3315] [0x30AD; 0x30ED; 0x30B0; 0x30E9; 0x30E0].
(** /repo/src/characters_set/cjk_compatibilities.rs:301 *)
Definition Cjk_SQUARE_KIROMEETORU : corr := linear [0x3316] [0x30AD; 0x30ED; 0x30E1; 0x30FC; 0x30C8; 0x30EB].
(** /repo/src/characters_set/cjk_compatibilities.rs:303 *)
Definition Cjk_SQUARE_KIROWATTO : corr := linear [0x3317] [0x30AD; 0x30ED; 0x30EF; 0x30C3; 0x30C8].
(** /repo/src/characters_set/cjk_compatibilities.rs:304 *)
Definition Cjk_SQUARE_GURAMU : corr := linear [0x3318] [0x30B0; 0x30E9; 0x30E0].
(** /repo/src/characters_set/cjk_compatibilities.rs:305 *)
Definition Cjk_SQUARE_GURAMUTON : corr := linear [0x3319] [0x30B0; 0x30E9; 0x30E0; 0x30C8; 0x30F3].
(** /repo/src/characters_set/cjk_compatibilities.rs:306 *)
Definition Cjk_SQUARE_KURUZEIRO : corr := linear [0x331A] [0x30AF; 0x30EB; 0x30BC; 0x30A4; 0x30ED].
(** /repo/src/characters_set/cjk_compatibilities.rs:307 *)
Definition Cjk_SQUARE_KUROONE : corr := linear [0x331B] [0x30AF; 0x30ED; 0x30FC; 0x30CD].
(** /repo/src/characters_set/cjk_compatibilities.rs:308 *)
Definition Cjk_SQUARE_KEESU : corr := linear [0x331C] [0x30B1; 0x30FC; 0x30B9].
(** /repo/src/characters_set/cjk_compatibilities.rs:309 *)
Definition Cjk_SQUARE_KORUNA : corr := linear [0x331D] [0x30B3; 0x30EB; 0x30CA].
(** /repo/src/characters_set/cjk_compatibilities.rs:310 *)
Definition Cjk_SQUARE_KOOPO : corr := linear [0x331E] [0x30B3; 0x30FC; 0x30DD].
(** /repo/src/characters_set/cjk_compatibilities.rs:311 *)
Definition Cjk_SQUARE_SAIKURU : corr := linear [0x331F] [0x30B5; 0x30A4; 0x30AF; 0x30EB].
(** /repo/src/characters_set/cjk_compatibilities.rs:312 *)
Definition Cjk_SQUARE_SANTIIMU : corr := linear [0x3320] [0x30B5; 0x30F3; 0x30C1; 0x30FC; 0x30E0].
(** /repo/src/characters_set/cjk_compatibilities.rs:313 *)
Definition Cjk_SQUARE_SIRINGU : corr := linear [0x3321] [0x30B7; 0x30EA; 0x30F3; 0x30B0].
(** /repo/src/characters_set/cjk_compatibilities.rs:314 *)
Definition Cjk_SQUARE_SENTI : corr := linear [0x3322] [0x30BB; 0x30F3; 0x30C1].
(** /repo/src/characters_set/cjk_compatibilities.rs:315 *)
Definition Cjk_SQUARE_SENTO : corr := linear [0x3323] [0x30BB; 0x30F3; 0x30C8].
(** /repo/src/characters_set/cjk_compatibilities.rs:316 *)
Definition Cjk_SQUARE_DAASU : corr := linear [0x3324] [0x30C0; 0x30FC; 0x30B9].
(** /repo/src/characters_set/cjk_compatibilities.rs:317 *)
Definition Cjk_SQUARE_DESI : corr := linear [0x3325] [0x30C7; 0x30B7].
(** /repo/src/characters_set/cjk_compatibilities.rs:318 *)
Definition Cjk_SQUARE_DORU : corr := linear [0x3326] [0x30C9; 0x30EB].
(** /repo/src/characters_set/cjk_compatibilities.rs:319 *)
Definition Cjk_SQUARE_TON : corr := linear [0x3327] [0x30C8; 0x30F3].
(** /repo/src/characters_set/cjk_compatibilities.rs:320 *)
Definition Cjk_SQUARE_NANO : corr := linear [0x3328] [0x30CA; 0x30CE].
(** /repo/src/characters_set/cjk_compatibilities.rs:321 *)
Definition Cjk_SQUARE_NOTTO : corr := linear [0x3329] [0x30CE; 0x30C3; 0x30C8].
(** /repo/src/characters_set/cjk_compatibilities.rs:322 *)
Definition Cjk_SQUARE_HAITU : corr := linear [0x332A] [0x30CF; 0x30A4; 0x30C4].
(** /repo/src/characters_set/cjk_compatibilities.rs:323 *)
Definition Cjk_SQUARE_PAASENTO : corr := linear [0x332B] [0x30D1; 0x30FC; 0x30BB; 0x30F3; 0x30C8].
(** /repo/src/characters_set/cjk_compatibilities.rs:324 *)
Definition Cjk_SQUARE_PAATU : corr := linear [0x332C] [0x30D1; 0x30FC; 0x30C4].
(** /repo/src/characters_set/cjk_compatibilities.rs:325 *)
Definition Cjk_SQUARE_BAARERU : corr := linear [0x332D] [0x30D0; 0x30FC; 0x30EC; 0x30EB].
(** /repo/src/characters_set/cjk_compatibilities.rs:326 *)
Definition Cjk_SQUARE_PIASUTORU : corr := linear [0x332E] [0x30D4; 0x30A2; 0x30B9; 0x30C8; 0x30EB].
(** /repo/src/characters_set/cjk_compatibilities.rs:327 *)
Definition Cjk_SQUARE_PIKURU : corr := linear [0x332F] [0x30D4; 0x30AF; 0x30EB].
(** /repo/src/characters_set/cjk_compatibilities.rs:328 *)
Definition Cjk_SQUARE_PIKO : corr := linear [0x3330] [0x30D4; 0x30B3].
(** /repo/src/characters_set/cjk_compatibilities.rs:329 *)
Definition Cjk_SQUARE_BIRU : corr := linear [0x3331] [0x30D3; 0x30EB].
(** /repo/src/characters_set/cjk_compatibilities.rs:330 *)
Definition Cjk_SQUARE_HUARADDO : corr := linear [0x3332] [0x30D5; 0x30A1; 0x30E9; 0x30C3; 0x30C9].
(** /repo/src/characters_set/cjk_compatibilities.rs:331 *)
Definition Cjk_SQUARE_HUIITO : corr := linear [0x3333] [0x30D5; 0x30A3; 0x30FC; 0x30C8].
(** /repo/src/characters_set/cjk_compatibilities.rs:332 *)
Definition Cjk_SQUARE_BUSSYERU : corr := linear [0x3334] [0x30D6; 0x30C3; 0x30B7; 0x30A7; 0x30EB].
(** /repo/src/characters_set/cjk_compatibilities.rs:333 *)
Definition Cjk_SQUARE_HURAN : corr := linear [0x3335] [0x30D5; 0x30E9; 0x30F3].
(** /repo/src/characters_set/cjk_compatibilities.rs:334 *)
Definition Cjk_SQUARE_HEKUTAARU : corr := linear [0x3336] [0x30D8; 0x30AF; 0x30BF; 0x30FC; 0x30EB].
(** /repo/src/characters_set/cjk_compatibilities.rs:335 *)
Definition Cjk_SQUARE_PESO : corr := linear [0x3337] [0x30DA; 0x30BD].
(** /repo/src/characters_set/cjk_compatibilities.rs:336 *)
Definition Cjk_SQUARE_PENIHI : corr := linear [0x3338] [0x30DA; 0x30CB; 0x30D2].
(** /repo/src/characters_set/cjk_compatibilities.rs:337 *)
Definition Cjk_SQUARE_HERUTU : corr := linear [0x3339] [0x30D8; 0x30EB; 0x30C4].
(** /repo/src/characters_set/cjk_compatibilities.rs:338 *)
Definition Cjk_SQUARE_PENSU : corr := linear [0x333A] [0x30DA; 0x30F3; 0x30B9].
(** /repo/src/characters_set/cjk_compatibilities.rs:339 *)
Definition Cjk_SQUARE_PEEZI : corr := linear [0x333B] [0x30DA; 0x30FC; 0x30B8].
(** /repo/src/characters_set/cjk_compatibilities.rs:340 *)
Definition Cjk_SQUARE_BEETA : corr := linear [0x333C] [0x30D9; 0x30FC; 0x30BF].
(** /repo/src/characters_set/cjk_compatibilities.rs:341 *)
Definition Cjk_SQUARE_POINTO : corr := linear [0x333D] [0x30DD; 0x30A4; 0x30F3; 0x30C8].
(** /repo/src/characters_set/cjk_compatibilities.rs:342 *)
Definition Cjk_SQUARE_BORUTO : corr := linear [0x333E] [0x30DC; 0x30EB; 0x30C8].
(** /repo/src/characters_set/cjk_compatibilities.rs:343 *)
Definition Cjk_SQUARE_HON : corr := linear [0x333F] [0x30DB; 0x30F3].
(** /repo/src/characters_set/cjk_compatibilities.rs:344 *)
Definition Cjk_SQUARE_PONDO : corr := linear [0x3340] [0x30DD; 0x30F3; 0x30C9].
(** /repo/src/characters_set/cjk_compatibilities.rs:345 *)
Definition Cjk_SQUARE_HOORU : corr := linear [0x3341] [0x30DB; 0x30FC; 0x30EB].
(** /repo/src/characters_set/cjk_compatibilities.rs:346 *)
Definition Cjk_SQUARE_HOON : corr := linear [0x3342] [0x30DB; 0x30FC; 0x30F3].
(** /repo/src/characters_set/cjk_compatibilities.rs:347 *)
Definition Cjk_SQUARE_MAIKURO : corr := linear [0x3343] [0x30DE; 0x30A4; 0x30AF; 0x30ED].
(** /repo/src/characters_set/cjk_compatibilities.rs:348 *)
Definition Cjk_SQUARE_MAIRU : corr := linear [0x3344] [0x30DE; 0x30A4; 0x30EB].
(** /repo/src/characters_set/cjk_compatibilities.rs:349 *)
Definition Cjk_SQUARE_MAHHA : corr := linear [0x3345] [0x30DE; 0x30C3; 0x30CF].
(** /repo/src/characters_set/cjk_compatibilities.rs:350 *)
Definition Cjk_SQUARE_MARUKU : corr := linear [0x3346] [0x30DE; 0x30EB; 0x30AF].
(** /repo/src/characters_set/cjk_compatibilities.rs:351 *)
Definition Cjk_SQUARE_MANSYON : corr := linear [0x3347] [0x30DE; 0x30F3; 0x30B7; 0x30E7; 0x30F3].
(** /repo/src/characters_set/cjk_compatibilities.rs:352 *)
Definition Cjk_SQUARE_MIKURON : corr := linear [0x3348] [0x30DF; 0x30AF; 0x30ED; 0x30F3].
(** /repo/src/characters_set/cjk_compatibilities.rs:353 *)
Definition Cjk_SQUARE_MIRI : corr := linear [0x3349] [0x30DF; 0x30EA].
(** /repo/src/characters_set/cjk_compatibilities.rs:354 *)
Definition Cjk_SQUARE_MIRIBAARU : corr := linear [0x334A] [0x30DF; 0x30EA; 0x30D0; 0x30FC; 0x30EB].
(** /repo/src/characters_set/cjk_compatibilities.rs:355 *)
Definition Cjk_SQUARE_MEGA : corr := linear [0x334B] [0x30E1; 0x30AC].
(** /repo/src/characters_set/cjk_compatibilities.rs:356 *)
Definition Cjk_SQUARE_MEGATON : corr := linear [0x334C] [0x30E1; 0x30AC; 0x30C8; 0x30F3].
(** /repo/src/characters_set/cjk_compatibilities.rs:357 *)
Definition Cjk_SQUARE_MEETORU : corr := linear [0x334D] [0x30E1; 0x30FC; 0x30C8; 0x30EB].
(** /repo/src/characters_set/cjk_compatibilities.rs:358 *)
Definition Cjk_SQUARE_YAADO : corr := linear [0x334E] [0x30E4; 0x30FC; 0x30C9].
(** /repo/src/characters_set/cjk_compatibilities.rs:359 *)
Definition Cjk_SQUARE_YAARU : corr := linear [0x334F] [0x30E4; 0x30FC; 0x30EB].
(** /repo/src/characters_set/cjk_compatibilities.rs:360 *)
Definition Cjk_SQUARE_YUAN : corr := linear [0x3350] [0x30E6; 0x30A2; 0x30F3].
(** /repo/src/characters_set/cjk_compatibilities.rs:361 *)
Definition Cjk_SQUARE_RITTORU : corr := linear [0x3351] [0x30EA; 0x30C3; 0x30C8; 0x30EB].
(** /repo/src/characters_set/cjk_compatibilities.rs:362 *)
Definition Cjk_SQUARE_RIRA : corr := linear [0x3352] [0x30EA; 0x30E9].
(** /repo/src/characters_set/cjk_compatibilities.rs:363 *)
Definition Cjk_SQUARE_RUPII : corr := linear [0x3353] [0x30EB; 0x30D4; 0x30FC].
(** /repo/src/characters_set/cjk_compatibilities.rs:364 *)
Definition Cjk_SQUARE_RUUBURU : corr := linear [0x3354] [0x30EB; 0x30FC; 0x30D6; 0x30EB].
(** /repo/src/characters_set/cjk_compatibilities.rs:365 *)
Definition Cjk_SQUARE_REMU : corr := linear [0x3355] [0x30EC; 0x30E0].
(** /repo/src/characters_set/cjk_compatibilities.rs:366 *)
Definition Cjk_SQUARE_RENTOGEN : corr := linear [0x3356] [0x30EC; 0x30F3; 0x30C8; 0x30B2; 0x30F3].
(** /repo/src/characters_set/cjk_compatibilities.rs:367 *)
Definition Cjk_SQUARE_WATTO : corr := linear [0x3357] [0x30EF; 0x30C3; 0x30C8].
(** /repo/src/characters_set/cjk_compatibilities.rs:368 *)
Definition Cjk_IDEOGRAPHIC_TELEGRAPH_SYMBOL_FOR_HOUR_ZERO : corr := linear [0x3358] [0x30; 0x70B9].
(** /repo/src/characters_set/cjk_compatibilities.rs:370 *)
Definition Cjk_IDEOGRAPHIC_TELEGRAPH_SYMBOL_FOR_HOUR_ONE : corr := linear [0x3359] [0x31; 0x70B9].
(** /repo/src/characters_set/cjk_compatibilities.rs:372 *)
Definition Cjk_IDEOGRAPHIC_TELEGRAPH_SYMBOL_FOR_HOUR_TWO : corr := linear [0x335A] [0x32; 0x70B9].
(** /repo/src/characters_set/cjk_compatibilities.rs:374 *)
Definition Cjk_IDEOGRAPHIC_TELEGRAPH_SYMBOL_FOR_HOUR_THREE : corr := linear [0x335B] [0x33; 0x70B9].
(** /repo/src/characters_set/cjk_compatibilities.rs:376 *)
Definition Cjk_IDEOGRAPHIC_TELEGRAPH_SYMBOL_FOR_HOUR_FOUR : corr := linear [0x335C] [0x34; 0x70B9].
(** /repo/src/characters_set/cjk_compatibilities.rs:378 *)
Definition Cjk_IDEOGRAPHIC_TELEGRAPH_SYMBOL_FOR_HOUR_FIVE : corr := linear [0x335D] [0x35; 0x70B9].
(** /repo/src/characters_set/cjk_compatibilities.rs:380 *)
Definition Cjk_IDEOGRAPHIC_TELEGRAPH_SYMBOL_FOR_HOUR_SIX : corr := linear [0x335E] [0x36; 0x70B9].
(** /repo/src/characters_set/cjk_compatibilities.rs:382 *)
Definition Cjk_IDEOGRAPHIC_TELEGRAPH_SYMBOL_FOR_HOUR_SEVEN : corr := linear [0x335F] [0x37; 0x70B9].
(** /repo/src/characters_set/cjk_compatibilities.rs:384 *)
Definition Cjk_IDEOGRAPHIC_TELEGRAPH_SYMBOL_FOR_HOUR_EIGHT : corr := linear [0x3360] [0x38; 0x70B9].
(** /repo/src/characters_set/cjk_compatibilities.rs:386 *)
Definition Cjk_IDEOGRAPHIC_TELEGRAPH_SYMBOL_FOR_HOUR_NINE : corr := linear [0x3361] [0x39; 0x70B9].
(** /repo/src/characters_set/cjk_compatibilities.rs:388 *)
Definition Cjk_IDEOGRAPHIC_TELEGRAPH_SYMBOL_FOR_HOUR_TEN : corr := linear [0x3362] [0x31; 0x30; 0x70B9].
(** /repo/src/characters_set/cjk_compatibilities.rs:390 *)
Definition Cjk_IDEOGRAPHIC_TELEGRAPH_SYMBOL_FOR_HOUR_ELEVEN : corr := linear [0x3363] [0x31; 0x31; 0x70B9].
(** /repo/src/characters_set/cjk_compatibilities.rs:392 *)
Definition Cjk_IDEOGRAPHIC_TELEGRAPH_SYMBOL_FOR_HOUR_TWELVE : corr := linear [0x3364] [0x31; 0x32; 0x70B9].
(** /repo/src/characters_set/cjk_compatibilities.rs:394 *)
Definition Cjk_IDEOGRAPHIC_TELEGRAPH_SYMBOL_FOR_HOUR_THIRTEEN : corr := linear [0x3365] [0x31; 0x33; 0x70B9].
(** /repo/src/characters_set/cjk_compatibilities.rs:396 *)
Definition Cjk_IDEOGRAPHIC_TELEGRAPH_SYMBOL_FOR_HOUR_FOURTEEN : corr := linear [0x3366] [0x31; 0x34; 0x70B9].
(** /repo/src/characters_set/cjk_compatibilities.rs:398 *)
Definition Cjk_IDEOGRAPHIC_TELEGRAPH_SYMBOL_FOR_HOUR_FIFTEEN : corr := linear [0x3367] [0x31; 0x35; 0x70B9].
(** /repo/src/characters_set/cjk_compatibilities.rs:400 *)
Definition Cjk_IDEOGRAPHIC_TELEGRAPH_SYMBOL_FOR_HOUR_SIXTEEN : corr := linear [0x3368] [0x31; 0x36; 0x70B9].
(** /repo/src/characters_set/cjk_compatibilities.rs:402 *)
Definition Cjk_IDEOGRAPHIC_TELEGRAPH_SYMBOL_FOR_HOUR_SEVENTEEN : corr := linear [0x3369] [0x31; 0x37; 0x70B9].
(** /repo/src/characters_set/cjk_compatibilities.rs:404 *)
Definition Cjk_IDEOGRAPHIC_TELEGRAPH_SYMBOL_FOR_HOUR_EIGHTEEN : corr := linear [0x336A] [0x31; 0x38; 0x70B9].
(** /repo/src/characters_set/cjk_compatibilities.rs:406 *)
Definition Cjk_IDEOGRAPHIC_TELEGRAPH_SYMBOL_FOR_HOUR_NINETEEN : corr := linear [0x336B] [0x31; 0x39; 0x70B9].
(** /repo/src/characters_set/cjk_compatibilities.rs:408 *)
Definition Cjk_IDEOGRAPHIC_TELEGRAPH_SYMBOL_FOR_HOUR_TWENTY : corr := linear [0x336C] [0x32; 0x30; 0x70B9].
(** /repo/src/characters_set/cjk_compatibilities.rs:410 *)
Definition Cjk_IDEOGRAPHIC_TELEGRAPH_SYMBOL_FOR_HOUR_TWENTY_ONE : corr := linear [0x336D] [0x32; 0x31; 0x70B9].
(** /repo/src/characters_set/cjk_compatibilities.rs:412 *)
Definition Cjk_IDEOGRAPHIC_TELEGRAPH_SYMBOL_FOR_HOUR_TWENTY_TWO : corr := linear [0x336E] [0x32; 0x32; 0x70B9].
(** /repo/src/characters_set/cjk_compatibilities.rs:414 *)
Definition Cjk_IDEOGRAPHIC_TELEGRAPH_SYMBOL_FOR_HOUR_TWENTY_THREE : corr := linear [0x336F] [0x32; 0x33; 0x70B9].
(** /repo/src/characters_set/cjk_compatibilities.rs:416 *)
Definition Cjk_IDEOGRAPHIC_TELEGRAPH_SYMBOL_FOR_HOUR_TWENTY_FOUR : corr := linear [0x3370] [0x32; 0x34; 0x70B9].
(** /repo/src/characters_set/cjk_compatibilities.rs:418 *)
Definition Cjk_SQUARE_HPA : corr := linear [0x3371] [0x68; 0x50; 0x61].
(** /repo/src/characters_set/cjk_compatibilities.rs:419 *)
Definition Cjk_SQUARE_DA : corr := linear [0x3372] [0x64; 0x61].
(** /repo/src/characters_set/cjk_compatibilities.rs:420 *)
Definition Cjk_SQUARE_AU : corr := linear [0x3373] [0x41; 0x55].
(** /repo/src/characters_set/cjk_compatibilities.rs:421 *)
Definition Cjk_SQUARE_BAR : corr := linear [0x3374] [0x62; 0x61; 0x72].
(** /repo/src/characters_set/cjk_compatibilities.rs:422 *)
Definition Cjk_SQUARE_OV : corr := linear [0x3375] [0x6F; 0x56].
(** /repo/src/characters_set/cjk_compatibilities.rs:423 *)
Definition Cjk_SQUARE_PC : corr := linear [0x3376] [0x70; 0x63].
(** /repo/src/characters_set/cjk_compatibilities.rs:424 *)
Definition Cjk_SQUARE_DM : corr := linear [0x3377] [0x64; 0x6D].
(** /repo/src/characters_set/cjk_compatibilities.rs:425 *)
Definition Cjk_SQUARE_DM_SQUARED : corr := linear [0x3378] [0x64; 0x6D; 0x32].
(** /repo/src/characters_set/cjk_compatibilities.rs:426 *)
Definition Cjk_SQUARE_DM_CUBED : corr := linear [0x3379] [0x64; 0x6D; 0x33].
(** /repo/src/characters_set/cjk_compatibilities.rs:427 *)
Definition Cjk_SQUARE_IU : corr := linear [0x337A] [0x49; 0x55].
(** /repo/src/characters_set/cjk_compatibilities.rs:428 *)
Definition Cjk_SQUARE_ERA_NAME_HEISEI : corr := linear [0x337B] [0x5E73; 0x6210].
(** /repo/src/characters_set/cjk_compatibilities.rs:429 *)
Definition Cjk_SQUARE_ERA_NAME_SYOUWA : corr := linear [0x337C] [0x662D; 0x548C].
(** /repo/src/characters_set/cjk_compatibilities.rs:430 *)
Definition Cjk_SQUARE_ERA_NAME_TAISYOU : corr := linear [0x337D] [0x5927; 0x6B63].
(** /repo/src/characters_set/cjk_compatibilities.rs:431 *)
Definition Cjk_SQUARE_ERA_NAME_MEIZI : corr := linear [0x337E] [0x660E; 0x6CBB].
(** /repo/src/characters_set/cjk_compatibilities.rs:432 *)
Definition Cjk_SQUARE_CORPORATION : corr := linear [0x337F] [0x682A; 0x5F0F; 0x4F1A; 0x793E].
(** /repo/src/characters_set/cjk_compatibilities.rs:433 *)
Definition Cjk_SQUARE_PA_AMPS : corr := linear [0x3380] [0x70; 0x41].
(** /repo/src/characters_set/cjk_compatibilities.rs:434 *)
Definition Cjk_SQUARE_NA : corr := linear [0x3381] [0x6E; 0x41].
(** /repo/src/characters_set/cjk_compatibilities.rs:435 *)
Definition Cjk_SQUARE_MU_A : corr := linear [0x3382] [0xB5; 0x41].
(** /repo/src/characters_set/cjk_compatibilities.rs:436 *)
Definition Cjk_SQUARE_MA : corr := linear [0x3383] [0x6D; 0x41].
(** /repo/src/characters_set/cjk_compatibilities.rs:437 *)
Definition Cjk_SQUARE_KA : corr := linear [0x3384] [0x6B; 0x41].
(** /repo/src/characters_set/cjk_compatibilities.rs:438 *)
Definition Cjk_SQUARE_KB : corr := linear [0x3385] [0x4B; 0x42].
(** /repo/src/characters_set/cjk_compatibilities.rs:439 *)
Definition Cjk_SQUARE_MB : corr := linear [0x3386] [0x4D; 0x42].
(** /repo/src/characters_set/cjk_compatibilities.rs:440 *)
Definition Cjk_SQUARE_GB : corr := linear [0x3387] [0x47; 0x42].
(** /repo/src/characters_set/cjk_compatibilities.rs:441 *)
Definition Cjk_SQUARE_CAL : corr := linear [0x3388] [0x63; 0x61; 0x6C].
(** /repo/src/characters_set/cjk_compatibilities.rs:442 *)
Definition Cjk_SQUARE_KCAL : corr := linear [0x3389] [0x6B; 0x63; 0x61; 0x6C].
(** /repo/src/characters_set/cjk_compatibilities.rs:443 *)
Definition Cjk_SQUARE_PF : corr := linear [0x338A] [0x70; 0x46].
(** /repo/src/characters_set/cjk_compatibilities.rs:444 *)
Definition Cjk_SQUARE_NF : corr := linear [0x338B] [0x6E; 0x46].
(** /repo/src/characters_set/cjk_compatibilities.rs:445 *)
Definition Cjk_SQUARE_MU_F : corr := linear [0x338C] [0xB5; 0x46].
(** /repo/src/characters_set/cjk_compatibilities.rs:446 *)
Definition Cjk_SQUARE_MU_G : corr := linear [0x338D] [0xB5; 0x67].
(** /repo/src/characters_set/cjk_compatibilities.rs:447 *)
Definition Cjk_SQUARE_MG : corr := linear [0x338E] [0x6D; 0x67].
(** /repo/src/characters_set/cjk_compatibilities.rs:448 *)
Definition Cjk_SQUARE_KG : corr := linear [0x338F] [0x6B; 0x67].
(** /repo/src/characters_set/cjk_compatibilities.rs:449 *)
Definition Cjk_SQUARE_HZ : corr := linear [0x3390] [0x48; 0x7A].
(** /repo/src/characters_set/cjk_compatibilities.rs:450 *)
Definition Cjk_SQUARE_KHZ : corr := linear [0x3391] [0x6B; 0x48; 0x7A].
(** /repo/src/characters_set/cjk_compatibilities.rs:451 *)
Definition Cjk_SQUARE_MHZ : corr := linear [0x3392] [0x4D; 0x48; 0x7A].
(** /repo/src/characters_set/cjk_compatibilities.rs:452 *)
Definition Cjk_SQUARE_GHZ : corr := linear [0x3393] [0x47; 0x48; 0x7A].
(** /repo/src/characters_set/cjk_compatibilities.rs:453 *)
Definition Cjk_SQUARE_THZ : corr := linear [0x3394] [0x54; 0x48; 0x7A].
(** /repo/src/characters_set/cjk_compatibilities.rs:454 *)
Definition Cjk_SQUARE_MU_L : corr := linear [0x3395] [0xB5; 0x6C].
(** /repo/src/characters_set/cjk_compatibilities.rs:455 *)
Definition Cjk_SQUARE_ML : corr := linear [0x3396] [0x6D; 0x6C].
(** /repo/src/characters_set/cjk_compatibilities.rs:456 *)
Definition Cjk_SQUARE_DL : corr := linear [0x3397] [0x64; 0x6C].
(** /repo/src/characters_set/cjk_compatibilities.rs:457 *)
Definition Cjk_SQUARE_KL : corr := linear [0x3398] [0x6B; 0x6C].
(** /repo/src/characters_set/cjk_compatibilities.rs:458 *)
Definition Cjk_SQUARE_FM : corr := linear [0x3399] [0x66; 0x6D].
(** /repo/src/characters_set/cjk_compatibilities.rs:459 *)
Definition Cjk_SQUARE_NM : corr := linear [0x339A] [0x6E; 0x6D].
(** /repo/src/characters_set/cjk_compatibilities.rs:460 *)
Definition Cjk_SQUARE_MU_M : corr := linear [0x339B] [0xB5; 0x6D].
(** /repo/src/characters_set/cjk_compatibilities.rs:461 *)
Definition Cjk_SQUARE_MM : corr := linear [0x339C] [0x6D; 0x6D].
(** /repo/src/characters_set/cjk_compatibilities.rs:462 *)
Definition Cjk_SQUARE_CM : corr := linear [0x339D] [0x63; 0x6D].
(** /repo/src/characters_set/cjk_compatibilities.rs:463 *)
Definition Cjk_SQUARE_KM : corr := linear [0x339E] [0x6B; 0x6D].
(** /repo/src/characters_set/cjk_compatibilities.rs:464 *)
Definition Cjk_SQUARE_MM_SQUARED : corr := linear [0x339F] [0x6D; 0x6D].
(** /repo/src/characters_set/cjk_compatibilities.rs:465 *)
Definition Cjk_SQUARE_CM_SQUARED : corr := linear [0x33A0] [0x63; 0x6D; 0x32].
(** /repo/src/characters_set/cjk_compatibilities.rs:466 *)
Definition Cjk_SQUARE_M_SQUARED : corr := linear [0x33A1] [0x6D; 0x32].
(** /repo/src/characters_set/cjk_compatibilities.rs:467 *)
Definition Cjk_SQUARE_KM_SQUARED : corr := linear [0x33A2] [0x6B; 0x6D; 0x32].
(** /repo/src/characters_set/cjk_compatibilities.rs:468 *)
Definition Cjk_SQUARE_MM_CUBED : corr := linear [0x33A3] [0x6D; 0x6D; 0x33].
(** /repo/src/characters_set/cjk_compatibilities.rs:469 *)
Definition Cjk_SQUARE_CM_CUBED : corr := linear [0x33A3] [0x63; 0x6D; 0x33].
(** /repo/src/characters_set/cjk_compatibilities.rs:470 *)
Definition Cjk_SQUARE_M_CUBED : corr := linear [0x33A5] [0x6D; 0x33].
(** /repo/src/characters_set/cjk_compatibilities.rs:471 *)
Definition Cjk_SQUARE_KM_CUBED : corr := linear [0x33A6] [0x6B; 0x6D; 0x33].
(** /repo/src/characters_set/cjk_compatibilities.rs:472 *)
Definition Cjk_SQUARE_M_OVER_S : corr := linear [0x33A7] [0x6D; 0x2F; 0x73].
(** /repo/src/characters_set/cjk_compatibilities.rs:473 *)
Definition Cjk_SQUARE_M_OVER_S_SQUARED : corr := linear [0x33A8] [0x6D; 0x2F; 0x73; 0x32].
(** /repo/src/characters_set/cjk_compatibilities.rs:474 *)
Definition Cjk_SQUARE_PA : corr := linear [0x33A9] [0x50; 0x61].
(** /repo/src/characters_set/cjk_compatibilities.rs:475 *)
Definition Cjk_SQUARE_KPA : corr := linear [0x33AA] [0x6B; 0x50; 0x61].
(** /repo/src/characters_set/cjk_compatibilities.rs:476 *)
Definition Cjk_SQUARE_MPA : corr := linear [0x33AB] [0x4D; 0x50; 0x61].
(** /repo/src/characters_set/cjk_compatibilities.rs:477 *)
Definition Cjk_SQUARE_GPA : corr := linear [0x33AC] [0x47; 0x50; 0x61].
(** /repo/src/characters_set/cjk_compatibilities.rs:478 *)
Definition Cjk_SQUARE_RAD : corr := linear [0x33AD] [0x72; 0x61; 0x64].
(** /repo/src/characters_set/cjk_compatibilities.rs:479 *)
Definition Cjk_SQUARE_RAD_OVER_S : corr := linear [0x33AE] [0x72; 0x61; 0x64; 0x2F; 0x73].
(** /repo/src/characters_set/cjk_compatibilities.rs:480 *)
Definition Cjk_SQUARE_RAD_OVER_S_SQUARED : corr := linear [0x33AF] [0x72; 0x61; 0x64; 0x2F; 0x73; 0x32].
(** /repo/src/characters_set/cjk_compatibilities.rs:482 *)
Definition Cjk_SQUARE_PS : corr := linear [0x33B0] [0x70; 0x73].
(** /repo/src/characters_set/cjk_compatibilities.rs:483 *)
Definition Cjk_SQUARE_NS : corr := linear [0x33B1] [0x6E; 0x73].
(** /repo/src/characters_set/cjk_compatibilities.rs:484 *)
Definition Cjk_SQUARE_MU_S : corr := linear [0x33B2] [0xB5; 0x73].
(** /repo/src/characters_set/cjk_compatibilities.rs:485 *)
Definition Cjk_SQUARE_MS : corr := linear [0x33B3] [0x6D; 0x73].
(** /repo/src/characters_set/cjk_compatibilities.rs:486 *)
Definition Cjk_SQUARE_PV : corr := linear [0x33B4] [0x70; 0x56].
(** /repo/src/characters_set/cjk_compatibilities.rs:487 *)
Definition Cjk_SQUARE_NV : corr := linear [0x33B5] [0x6E; 0x56].
(** /repo/src/characters_set/cjk_compatibilities.rs:488 *)
Definition Cjk_SQUARE_MU_V : corr := linear [0x33B6] [0xB5; 0x56].
(** /repo/src/characters_set/cjk_compatibilities.rs:489 *)
Definition Cjk_SQUARE_MV : corr := linear [0x33B7] [0x6D; 0x56].
(** /repo/src/characters_set/cjk_compatibilities.rs:490 *)
Definition Cjk_SQUARE_KV : corr := linear [0x33B8] [0x6B; 0x56].
(** /repo/src/characters_set/cjk_compatibilities.rs:491 *)
Definition Cjk_SQUARE_MV_MEGA : corr := linear [0x33B9] [0x4D; 0x56].
(** /repo/src/characters_set/cjk_compatibilities.rs:492 *)
Definition Cjk_SQUARE_PW : corr := linear [0x33BA] [0x70; 0x57].
(** /repo/src/characters_set/cjk_compatibilities.rs:493 *)
Definition Cjk_SQUARE_NW : corr := linear [0x33BB] [0x6E; 0x57].
(** /repo/src/characters_set/cjk_compatibilities.rs:494 *)
Definition Cjk_SQUARE_MU_W : corr := linear [0x33BC] [0xB5; 0x57].
(** /repo/src/characters_set/cjk_compatibilities.rs:495 *)
Definition Cjk_SQUARE_MW : corr := linear [0x33BD] [0x6D; 0x57].
(** /repo/src/characters_set/cjk_compatibilities.rs:496 *)
Definition Cjk_SQUARE_KW : corr := linear [0x33BE] [0x6B; 0x57].
(** /repo/src/characters_set/cjk_compatibilities.rs:497 *)
Definition Cjk_SQUARE_MW_MEGA : corr := linear [0x33BF] [0x4D; 0x57].
(** /repo/src/characters_set/cjk_compatibilities.rs:498 *)
Definition Cjk_SQUARE_K_OHM : corr := linear [0x33C0] [0x6B; 0x3A9].
(** /repo/src/characters_set/cjk_compatibilities.rs:499 *)
Definition Cjk_SQUARE_M_OHM : corr := linear [0x33C1] [0x4D; 0x3A9].
(** /repo/src/characters_set/cjk_compatibilities.rs:500 *)
Definition Cjk_SQUARE_AM : corr := linear [0x33C2] [0x61; 0x2E; 0x6D; 0x2E].
(** /repo/src/characters_set/cjk_compatibilities.rs:501 *)
Definition Cjk_SQUARE_BQ : corr := linear [0x33C3] [0x42; 0x71].
(** /repo/src/characters_set/cjk_compatibilities.rs:502 *)
Definition Cjk_SQUARE_CC : corr := linear [0x33C4] [0x63; 0x63].
(** /repo/src/characters_set/cjk_compatibilities.rs:503 *)
Definition Cjk_SQUARE_CD : corr := linear [0x33C5] [0x63; 0x64].
(** /repo/src/characters_set/cjk_compatibilities.rs:504 *)
Definition Cjk_SQUARE_C_OVER_KG : corr := linear [0x33C6] [0x43; 0x2F; 0x6B; 0x67].
(** /repo/src/characters_set/cjk_compatibilities.rs:505 *)
Definition Cjk_SQUARE_CO : corr := linear [0x33C7] [0x43; 0x6F; 0x2E].
(** /repo/src/characters_set/cjk_compatibilities.rs:506 *)
Definition Cjk_SQUARE_DB : corr := linear [0x33C8] [0x64; 0x42].
(** /repo/src/characters_set/cjk_compatibilities.rs:507 *)
Definition Cjk_SQUARE_GY : corr := linear [0x33C9] [0x47; 0x79].
(** /repo/src/characters_set/cjk_compatibilities.rs:508 *)
Definition Cjk_SQUARE_HA : corr := linear [0x33CA] [0x68; 0x61].
(** /repo/src/characters_set/cjk_compatibilities.rs:509 *)
Definition Cjk_SQUARE_HP : corr := linear [0x33CB] [0x48; 0x50].
(** /repo/src/characters_set/cjk_compatibilities.rs:510 *)
Definition Cjk_SQUARE_IN : corr := linear [0x33CC] [0x69; 0x6E].
(** /repo/src/characters_set/cjk_compatibilities.rs:511 *)
Definition Cjk_SQUARE_KK : corr := linear [0x33CD] [0x4B; 0x2E].
(** /repo/src/characters_set/cjk_compatibilities.rs:512 *)
Definition Cjk_SQUARE_KM_CAPITAL : corr := linear [0x33CE] [0x4B; 0x4D].
(** /repo/src/characters_set/cjk_compatibilities.rs:513 *)
Definition Cjk_SQUARE_KT : corr := linear [0x33CF] [0x6B; 0x74].
(** /repo/src/characters_set/cjk_compatibilities.rs:514 *)
Definition Cjk_SQUARE_LM : corr := linear [0x33D0] [0x6C; 0x6D].
(** /repo/src/characters_set/cjk_compatibilities.rs:515 *)
Definition Cjk_SQUARE_LN : corr := linear [0x33D1] [0x6C; 0x6E].
(** /repo/src/characters_set/cjk_compatibilities.rs:516 *)
Definition Cjk_SQUARE_LOG : corr := linear [0x33D2] [0x6C; 0x6F; 0x67].
(** /repo/src/characters_set/cjk_compatibilities.rs:517 *)
Definition Cjk_SQUARE_LX : corr := linear [0x33D3] [0x6C; 0x78].
(** /repo/src/characters_set/cjk_compatibilities.rs:518 *)
Definition Cjk_SQUARE_MB_SMALL : corr := linear [0x33D4] [0x6D; 0x62].
(** /repo/src/characters_set/cjk_compatibilities.rs:519 *)
Definition Cjk_SQUARE_MIL : corr := linear [0x33D5] [0x6D; 0x69; 0x6C].
(** /repo/src/characters_set/cjk_compatibilities.rs:520 *)
Definition Cjk_SQUARE_MOL : corr := linear [0x33D6] [0x6D; 0x6F; 0x6C].
(** /repo/src/characters_set/cjk_compatibilities.rs:521 *)
Definition Cjk_SQUARE_PH : corr := linear [0x33D7] [0x70; 0x48].
(** /repo/src/characters_set/cjk_compatibilities.rs:522 *)
Definition Cjk_SQUARE_PM : corr := linear [0x33D8] [0x70; 0x2E; 0x6D; 0x2E].
(** /repo/src/characters_set/cjk_compatibilities.rs:523 *)
Definition Cjk_SQUARE_PPM : corr := linear [0x33D9] [0x70; 0x70; 0x6D].
(** /repo/src/characters_set/cjk_compatibilities.rs:524 *)
Definition Cjk_SQUARE_PR : corr := linear [0x33DA] [0x50; 0x52].
(** /repo/src/characters_set/cjk_compatibilities.rs:525 *)
Definition Cjk_SQUARE_SR : corr := linear [0x33DB] [0x73; 0x72].
(** /repo/src/characters_set/cjk_compatibilities.rs:526 *)
Definition Cjk_SQUARE_SV : corr := linear [0x33DC] [0x53; 0x76].
(** /repo/src/characters_set/cjk_compatibilities.rs:527 *)
Definition Cjk_SQUARE_WB : corr := linear [0x33DD] [0x57; 0x62].
(** /repo/src/characters_set/cjk_compatibilities.rs:528 *)
Definition Cjk_SQUARE_V_OVER_M : corr := linear [0x33DE] [0x56; 0x2F; 0x6D].
(** /repo/src/characters_set/cjk_compatibilities.rs:529 *)
Definition Cjk_SQUARE_A_OVER_M : corr := linear [0x33DF] [0x41; 0x2F; 0x6D].
(** /repo/src/characters_set/cjk_compatibilities.rs:530 *)
Definition Cjk_IDEOGRAPHIC_TELEGRAPH_SYMBOL_FOR_DAY_ONE : corr := linear [0x33E0] [0x31; 0x65E5].
(** /repo/src/characters_set/cjk_compatibilities.rs:532 *)
Definition Cjk_IDEOGRAPHIC_TELEGRAPH_SYMBOL_FOR_DAY_TWO : corr := linear [0x33E1] [0x32; 0x65E5].
(** /repo/src/characters_set/cjk_compatibilities.rs:534 *)
Definition Cjk_IDEOGRAPHIC_TELEGRAPH_SYMBOL_FOR_DAY_THREE : corr := linear [0x33E2] [0x33; 0x65E5].
(** /repo/src/characters_set/cjk_compatibilities.rs:536 *)
Definition Cjk_IDEOGRAPHIC_TELEGRAPH_SYMBOL_FOR_DAY_FOUR : corr := linear [0x33E3] [0x34; 0x65E5].
(** /repo/src/characters_set/cjk_compatibilities.rs:538 *)
Definition Cjk_IDEOGRAPHIC_TELEGRAPH_SYMBOL_FOR_DAY_FIVE : corr := linear [0x33E4] [0x35; 0x65E5].
(** /repo/src/characters_set/cjk_compatibilities.rs:540 *)
Definition Cjk_IDEOGRAPHIC_TELEGRAPH_SYMBOL_FOR_DAY_SIX : corr := linear [0x33E5] [0x36; 0x65E5].
(** /repo/src/characters_set/cjk_compatibilities.rs:542 *)
Definition Cjk_IDEOGRAPHIC_TELEGRAPH_SYMBOL_FOR_DAY_SEVEN : corr := linear [0x33E6] [0x37; 0x65E5].
(** /repo/src/characters_set/cjk_compatibilities.rs:544 *)
Definition Cjk_IDEOGRAPHIC_TELEGRAPH_SYMBOL_FOR_DAY_EIGHT : corr := linear [0x33E7] [0x38; 0x65E5].
(** /repo/src/characters_set/cjk_compatibilities.rs:546 *)
Definition Cjk_IDEOGRAPHIC_TELEGRAPH_SYMBOL_FOR_DAY_NINE : corr := linear [0x33E8] [0x39; 0x65E5].
(** /repo/src/characters_set/cjk_compatibilities.rs:548 *)
Definition Cjk_IDEOGRAPHIC_TELEGRAPH_SYMBOL_FOR_DAY_TEN : corr := linear [0x33E9] [0x31; 0x30; 0x65E5].
(** /repo/src/characters_set/cjk_compatibilities.rs:550 *)
Definition Cjk_IDEOGRAPHIC_TELEGRAPH_SYMBOL_FOR_DAY_ELEVEN : corr := linear [0x33EA] [0x31; 0x31; 0x65E5].
(** /repo/src/characters_set/cjk_compatibilities.rs:552 *)
Definition Cjk_IDEOGRAPHIC_TELEGRAPH_SYMBOL_FOR_DAY_TWELVE : corr := linear [0x33EB] [0x31; 0x32; 0x65E5].
(** /repo/src/characters_set/cjk_compatibilities.rs:554 *)
Definition Cjk_IDEOGRAPHIC_TELEGRAPH_SYMBOL_FOR_DAY_THIRTEEN : corr := linear [0x33EC] [0x31; 0x33; 0x65E5].
(** /repo/src/characters_set/cjk_compatibilities.rs:556 *)
Definition Cjk_IDEOGRAPHIC_TELEGRAPH_SYMBOL_FOR_DAY_FOURTEEN : corr := linear [0x33ED] [0x31; 0x34; 0x65E5].
(** /repo/src/characters_set/cjk_compatibilities.rs:558 *)
Definition Cjk_IDEOGRAPHIC_TELEGRAPH_SYMBOL_FOR_DAY_FIFTEEN : corr := linear [0x33EE] [0x31; 0x35; 0x65E5].
(** /repo/src/characters_set/cjk_compatibilities.rs:560 *)
Definition Cjk_IDEOGRAPHIC_TELEGRAPH_SYMBOL_FOR_DAY_SIXTEEN : corr := linear [0x33EF] [0x31; 0x36; 0x65E5].
(** /repo/src/characters_set/cjk_compatibilities.rs:562 *)
Definition Cjk_IDEOGRAPHIC_TELEGRAPH_SYMBOL_FOR_DAY_SEVENTEEN : corr := linear [0x33F0] [0x31; 0x37; 0x65E5].
(** /repo/src/characters_set/cjk_compatibilities.rs:564 *)
Definition Cjk_IDEOGRAPHIC_TELEGRAPH_SYMBOL_FOR_DAY_EIGHTEEN : corr := linear [0x33F1] [0x31; 0x38; 0x65E5].
(** /repo/src/characters_set/cjk_compatibilities.rs:566 *)
Definition Cjk_IDEOGRAPHIC_TELEGRAPH_SYMBOL_FOR_DAY_NINETEEN : corr := linear [0x33F2] [0x31; 0x39; 0x65E5].
(** /repo/src/characters_set/cjk_compatibilities.rs:568 *)
Definition Cjk_IDEOGRAPHIC_TELEGRAPH_SYMBOL_FOR_DAY_TWENTY : corr := linear [0x33F3] [0x32; 0x30; 0x65E5].
(** /repo/src/characters_set/cjk_compatibilities.rs:570 *)
Definition Cjk_IDEOGRAPHIC_TELEGRAPH_SYMBOL_FOR_DAY_TWENTY_ONE : corr := linear [0x33F4] [0x32; 0x31; 0x65E5].
(** /repo/src/characters_set/cjk_compatibilities.rs:572 *)
Definition Cjk_IDEOGRAPHIC_TELEGRAPH_SYMBOL_FOR_DAY_TWENTY_TWO : corr := linear [0x33F5] [0x32; 0x32; 0x65E5].
(** /repo/src/characters_set/cjk_compatibilities.rs:574 *)
Definition Cjk_IDEOGRAPHIC_TELEGRAPH_SYMBOL_FOR_DAY_TWENTY_THREE : corr := linear [0x33F6] [0x32; 0x33; 0x65E5].
(** /repo/src/characters_set/cjk_compatibilities.rs:576 *)
Definition Cjk_IDEOGRAPHIC_TELEGRAPH_SYMBOL_FOR_DAY_TWENTY_FOUR : corr := linear [0x33F7] [0x32; 0x34; 0x65E5].
(** /repo/src/characters_set/cjk_compatibilities.rs:578 *)
Definition Cjk_IDEOGRAPHIC_TELEGRAPH_SYMBOL_FOR_DAY_TWENTY_FIVE : corr := linear [0x33F8] [0x32; 0x35; 0x65E5].
(** /repo/src/characters_set/cjk_compatibilities.rs:580 *)
Definition Cjk_IDEOGRAPHIC_TELEGRAPH_SYMBOL_FOR_DAY_TWENTY_SIX : corr := linear [0x33F9] [0x32; 0x36; 0x65E5].
(** /repo/src/characters_set/cjk_compatibilities.rs:582 *)
Definition Cjk_IDEOGRAPHIC_TELEGRAPH_SYMBOL_FOR_DAY_TWENTY_SEVEN : corr := linear [0x33FA] [0x32; 0x37; 0x65E5].
(** /repo/src/characters_set/cjk_compatibilities.rs:584 *)
Definition Cjk_IDEOGRAPHIC_TELEGRAPH_SYMBOL_FOR_DAY_TWENTY_EIGHT : corr := linear [0x33FB] [0x32; 0x38; 0x65E5].
(** /repo/src/characters_set/cjk_compatibilities.rs:586 *)
Definition Cjk_IDEOGRAPHIC_TELEGRAPH_SYMBOL_FOR_DAY_TWENTY_NINE : corr := linear [0x33FC] [0x32; 0x39; 0x65E5].
(** /repo/src/characters_set/cjk_compatibilities.rs:588 *)
Definition Cjk_IDEOGRAPHIC_TELEGRAPH_SYMBOL_FOR_DAY_THIRTY : corr := linear [0x33FD] [0x33; 0x30; 0x65E5].
(** /repo/src/characters_set/cjk_compatibilities.rs:590 *)
Definition Cjk_IDEOGRAPHIC_TELEGRAPH_SYMBOL_FOR_DAY_THIRTY_ONE : corr := linear [0x33FE] [0x33; 0x31; 0x65E5].
(** /repo/src/characters_set/cjk_compatibilities.rs:592 *)
Definition Cjk_SQUARE_GAL : corr := linear [0x33FF] [0x67; 0x61; 0x6C].
(** /repo/src/characters_set/cjk_compatibilities.rs:7-265: the chain of [+] in [items()]. *)
Definition CJK_COMPATIBILITIES_terms : list corr :=
  [ Cjk_SQUARE_ARUHUA
  ; Cjk_SQUARE_ANPEA
  ; Cjk_SQUARE_AARU
  ; Cjk_SQUARE_ININGU
  ; Cjk_SQUARE_INTI
  ; Cjk_SQUARE_UON
  ; Cjk_SQUARE_ESUKUUDO
  ; Cjk_SQUARE_EEKAA
  ; Cjk_SQUARE_ONSU
  ; Cjk_SQUARE_OOMU
  ; Cjk_SQUARE_KAIRI
  ; Cjk_SQUARE_KARATTO
  ; Cjk_SQUARE_KARORII
  ; Cjk_SQUARE_GARON
  ; Cjk_SQUARE_GANMA
  ; Cjk_SQUARE_GIGA
  ; Cjk_SQUARE_GINII
  ; Cjk_SQUARE_KYURII
  ; Cjk_SQUARE_GIRUDAA
  ; Cjk_SQUARE_KIRO
  ; Cjk_SQUARE_KIROGURAMU
  ; Cjk_SQUARE_KIROMEETORU
  ; Cjk_SQUARE_KIROWATTO
  ; Cjk_SQUARE_GURAMU
  ; Cjk_SQUARE_GURAMUTON
  ; Cjk_SQUARE_KURUZEIRO
  ; Cjk_SQUARE_KUROONE
  ; Cjk_SQUARE_KEESU
  ; Cjk_SQUARE_KORUNA
  ; Cjk_SQUARE_KOOPO
  ; Cjk_SQUARE_SAIKURU
  ; Cjk_SQUARE_SANTIIMU
  ; Cjk_SQUARE_SIRINGU
  ; Cjk_SQUARE_SENTI
  ; Cjk_SQUARE_SENTO
  ; Cjk_SQUARE_DAASU
  ; Cjk_SQUARE_DESI
  ; Cjk_SQUARE_DORU
  ; Cjk_SQUARE_TON
  ; Cjk_SQUARE_NANO
  ; Cjk_SQUARE_NOTTO
  ; Cjk_SQUARE_HAITU
  ; Cjk_SQUARE_PAASENTO
  ; Cjk_SQUARE_PAATU
  ; Cjk_SQUARE_BAARERU
  ; Cjk_SQUARE_PIASUTORU
  ; Cjk_SQUARE_PIKURU
  ; Cjk_SQUARE_PIKO
  ; Cjk_SQUARE_BIRU
  ; Cjk_SQUARE_HUARADDO
  ; Cjk_SQUARE_HUIITO
  ; Cjk_SQUARE_BUSSYERU
  ; Cjk_SQUARE_HURAN
  ; Cjk_SQUARE_HEKUTAARU
  ; Cjk_SQUARE_PESO
  ; Cjk_SQUARE_PENIHI
  ; Cjk_SQUARE_HERUTU
  ; Cjk_SQUARE_PENSU
  ; Cjk_SQUARE_PEEZI
  ; Cjk_SQUARE_BEETA
  ; Cjk_SQUARE_POINTO
  ; Cjk_SQUARE_BORUTO
  ; Cjk_SQUARE_HON
  ; Cjk_SQUARE_PONDO
  ; Cjk_SQUARE_HOORU
  ; Cjk_SQUARE_HOON
  ; Cjk_SQUARE_MAIKURO
  ; Cjk_SQUARE_MAIRU
  ; Cjk_SQUARE_MAHHA
  ; Cjk_SQUARE_MARUKU
  ; Cjk_SQUARE_MANSYON
  ; Cjk_SQUARE_MIKURON
  ; Cjk_SQUARE_MIRI
  ; Cjk_SQUARE_MIRIBAARU
  ; Cjk_SQUARE_MEGA
  ; Cjk_SQUARE_MEGATON
  ; Cjk_SQUARE_MEETORU
  ; Cjk_SQUARE_YAADO
  ; Cjk_SQUARE_YAARU
  ; Cjk_SQUARE_YUAN
  ; Cjk_SQUARE_RITTORU
  ; Cjk_SQUARE_RIRA
  ; Cjk_SQUARE_RUPII
  ; Cjk_SQUARE_RUUBURU
  ; Cjk_SQUARE_REMU
  ; Cjk_SQUARE_RENTOGEN
  ; Cjk_SQUARE_WATTO
  ; Cjk_IDEOGRAPHIC_TELEGRAPH_SYMBOL_FOR_HOUR_ZERO
  ; Cjk_IDEOGRAPHIC_TELEGRAPH_SYMBOL_FOR_HOUR_ONE
  ; Cjk_IDEOGRAPHIC_TELEGRAPH_SYMBOL_FOR_HOUR_TWO
  ; Cjk_IDEOGRAPHIC_TELEGRAPH_SYMBOL_FOR_HOUR_THREE
  ; Cjk_IDEOGRAPHIC_TELEGRAPH_SYMBOL_FOR_HOUR_FOUR
  ; Cjk_IDEOGRAPHIC_TELEGRAPH_SYMBOL_FOR_HOUR_FIVE
  ; Cjk_IDEOGRAPHIC_TELEGRAPH_SYMBOL_FOR_HOUR_SIX
  ; Cjk_IDEOGRAPHIC_TELEGRAPH_SYMBOL_FOR_HOUR_SEVEN
  ; Cjk_IDEOGRAPHIC_TELEGRAPH_SYMBOL_FOR_HOUR_EIGHT
  ; Cjk_IDEOGRAPHIC_TELEGRAPH_SYMBOL_FOR_HOUR_NINE
  ; Cjk_IDEOGRAPHIC_TELEGRAPH_SYMBOL_FOR_HOUR_TEN
  ; Cjk_IDEOGRAPHIC_TELEGRAPH_SYMBOL_FOR_HOUR_ELEVEN
  ; Cjk_IDEOGRAPHIC_TELEGRAPH_SYMBOL_FOR_HOUR_TWELVE
  ; Cjk_IDEOGRAPHIC_TELEGRAPH_SYMBOL_FOR_HOUR_THIRTEEN
  ; Cjk_IDEOGRAPHIC_TELEGRAPH_SYMBOL_FOR_HOUR_FOURTEEN
  ; Cjk_IDEOGRAPHIC_TELEGRAPH_SYMBOL_FOR_HOUR_FIFTEEN
  ; Cjk_IDEOGRAPHIC_TELEGRAPH_SYMBOL_FOR_HOUR_SIXTEEN
  ; Cjk_IDEOGRAPHIC_TELEGRAPH_SYMBOL_FOR_HOUR_SEVENTEEN
  ; Cjk_IDEOGRAPHIC_TELEGRAPH_SYMBOL_FOR_HOUR_EIGHTEEN
  ; Cjk_IDEOGRAPHIC_TELEGRAPH_SYMBOL_FOR_HOUR_NINETEEN
  ; Cjk_IDEOGRAPHIC_TELEGRAPH_SYMBOL_FOR_HOUR_TWENTY
  ; Cjk_IDEOGRAPHIC_TELEGRAPH_SYMBOL_FOR_HOUR_TWENTY_ONE
  ; Cjk_IDEOGRAPHIC_TELEGRAPH_SYMBOL_FOR_HOUR_TWENTY_TWO
  ; Cjk_IDEOGRAPHIC_TELEGRAPH_SYMBOL_FOR_HOUR_TWENTY_THREE
  ; Cjk_IDEOGRAPHIC_TELEGRAPH_SYMBOL_FOR_HOUR_TWENTY_FOUR
  ; Cjk_SQUARE_HPA
  ; Cjk_SQUARE_DA
  ; Cjk_SQUARE_AU
  ; Cjk_SQUARE_BAR
  ; Cjk_SQUARE_OV
  ; Cjk_SQUARE_PC
  ; Cjk_SQUARE_DM
  ; Cjk_SQUARE_DM_SQUARED
  ; Cjk_SQUARE_DM_CUBED
  ; Cjk_SQUARE_IU
  ; Cjk_SQUARE_ERA_NAME_HEISEI
  ; Cjk_SQUARE_ERA_NAME_SYOUWA
  ; Cjk_SQUARE_ERA_NAME_TAISYOU
  ; Cjk_SQUARE_ERA_NAME_MEIZI
  ; Cjk_SQUARE_CORPORATION
  ; Cjk_SQUARE_PA_AMPS
  ; Cjk_SQUARE_NA
  ; Cjk_SQUARE_MU_A
  ; Cjk_SQUARE_MA
  ; Cjk_SQUARE_KA
  ; Cjk_SQUARE_KB
  ; Cjk_SQUARE_MB
  ; Cjk_SQUARE_GB
  ; Cjk_SQUARE_CAL
  ; Cjk_SQUARE_KCAL
  ; Cjk_SQUARE_PF
  ; Cjk_SQUARE_NF
  ; Cjk_SQUARE_MU_F
  ; Cjk_SQUARE_MU_G
  ; Cjk_SQUARE_MG
  ; Cjk_SQUARE_KG
  ; Cjk_SQUARE_HZ
  ; Cjk_SQUARE_KHZ
  ; Cjk_SQUARE_MHZ
  ; Cjk_SQUARE_GHZ
  ; Cjk_SQUARE_THZ
  ; Cjk_SQUARE_MU_L
  ; Cjk_SQUARE_ML
  ; Cjk_SQUARE_DL
  ; Cjk_SQUARE_KL
  ; Cjk_SQUARE_FM
  ; Cjk_SQUARE_NM
  ; Cjk_SQUARE_MU_M
  ; Cjk_SQUARE_MM
  ; Cjk_SQUARE_CM
  ; Cjk_SQUARE_KM
  ; Cjk_SQUARE_MM_SQUARED
  ; Cjk_SQUARE_CM_SQUARED
  ; Cjk_SQUARE_M_SQUARED
  ; Cjk_SQUARE_KM_SQUARED
  ; Cjk_SQUARE_MM_CUBED
  ; Cjk_SQUARE_CM_CUBED
  ; Cjk_SQUARE_M_CUBED
  ; Cjk_SQUARE_KM_CUBED
  ; Cjk_SQUARE_M_OVER_S
  ; Cjk_SQUARE_M_OVER_S_SQUARED
  ; Cjk_SQUARE_PA
  ; Cjk_SQUARE_KPA
  ; Cjk_SQUARE_MPA
  ; Cjk_SQUARE_GPA
  ; Cjk_SQUARE_RAD
  ; Cjk_SQUARE_RAD_OVER_S
  ; Cjk_SQUARE_RAD_OVER_S_SQUARED
  ; Cjk_SQUARE_PS
  ; Cjk_SQUARE_NS
  ; Cjk_SQUARE_MU_S
  ; Cjk_SQUARE_MS
  ; Cjk_SQUARE_PV
  ; Cjk_SQUARE_NV
  ; Cjk_SQUARE_MU_V
  ; Cjk_SQUARE_MV
  ; Cjk_SQUARE_KV
  ; Cjk_SQUARE_MV_MEGA
  ; Cjk_SQUARE_PW
  ; Cjk_SQUARE_NW
  ; Cjk_SQUARE_MU_W
  ; Cjk_SQUARE_MW
  ; Cjk_SQUARE_KW
  ; Cjk_SQUARE_MW_MEGA
  ; Cjk_SQUARE_K_OHM
  ; Cjk_SQUARE_M_OHM
  ; Cjk_SQUARE_AM
  ; Cjk_SQUARE_BQ
  ; Cjk_SQUARE_CC
  ; Cjk_SQUARE_CD
  ; Cjk_SQUARE_C_OVER_KG
  ; Cjk_SQUARE_CO
  ; Cjk_SQUARE_DB
  ; Cjk_SQUARE_GY
  ; Cjk_SQUARE_HA
  ; Cjk_SQUARE_HP
  ; Cjk_SQUARE_IN
  ; Cjk_SQUARE_KK
  ; Cjk_SQUARE_KM_CAPITAL
  ; Cjk_SQUARE_KT
  ; Cjk_SQUARE_LM
  ; Cjk_SQUARE_LN
  ; Cjk_SQUARE_LOG
  ; Cjk_SQUARE_LX
  ; Cjk_SQUARE_MB_SMALL
  ; Cjk_SQUARE_MIL
  ; Cjk_SQUARE_MOL
  ; Cjk_SQUARE_PH
  ; Cjk_SQUARE_PM
  ; Cjk_SQUARE_PPM
  ; Cjk_SQUARE_PR
  ; Cjk_SQUARE_SR
  ; Cjk_SQUARE_SV
  ; Cjk_SQUARE_WB
  ; Cjk_SQUARE_V_OVER_M
  ; Cjk_SQUARE_A_OVER_M
  ; Cjk_IDEOGRAPHIC_TELEGRAPH_SYMBOL_FOR_DAY_ONE
  ; Cjk_IDEOGRAPHIC_TELEGRAPH_SYMBOL_FOR_DAY_TWO
  ; Cjk_IDEOGRAPHIC_TELEGRAPH_SYMBOL_FOR_DAY_THREE
  ; Cjk_IDEOGRAPHIC_TELEGRAPH_SYMBOL_FOR_DAY_FOUR
  ; Cjk_IDEOGRAPHIC_TELEGRAPH_SYMBOL_FOR_DAY_FIVE
  ; Cjk_IDEOGRAPHIC_TELEGRAPH_SYMBOL_FOR_DAY_SIX
  ; Cjk_IDEOGRAPHIC_TELEGRAPH_SYMBOL_FOR_DAY_SEVEN
  ; Cjk_IDEOGRAPHIC_TELEGRAPH_SYMBOL_FOR_DAY_EIGHT
  ; Cjk_IDEOGRAPHIC_TELEGRAPH_SYMBOL_FOR_DAY_NINE
  ; Cjk_IDEOGRAPHIC_TELEGRAPH_SYMBOL_FOR_DAY_TEN
  ; Cjk_IDEOGRAPHIC_TELEGRAPH_SYMBOL_FOR_DAY_ELEVEN
  ; Cjk_IDEOGRAPHIC_TELEGRAPH_SYMBOL_FOR_DAY_TWELVE
  ; Cjk_IDEOGRAPHIC_TELEGRAPH_SYMBOL_FOR_DAY_THIRTEEN
  ; Cjk_IDEOGRAPHIC_TELEGRAPH_SYMBOL_FOR_DAY_FOURTEEN
  ; Cjk_IDEOGRAPHIC_TELEGRAPH_SYMBOL_FOR_DAY_FIFTEEN
  ; Cjk_IDEOGRAPHIC_TELEGRAPH_SYMBOL_FOR_DAY_SIXTEEN
  ; Cjk_IDEOGRAPHIC_TELEGRAPH_SYMBOL_FOR_DAY_SEVENTEEN
  ; Cjk_IDEOGRAPHIC_TELEGRAPH_SYMBOL_FOR_DAY_EIGHTEEN
  ; Cjk_IDEOGRAPHIC_TELEGRAPH_SYMBOL_FOR_DAY_NINETEEN
  ; Cjk_IDEOGRAPHIC_TELEGRAPH_SYMBOL_FOR_DAY_TWENTY
  ; Cjk_IDEOGRAPHIC_TELEGRAPH_SYMBOL_FOR_DAY_TWENTY_ONE
  ; Cjk_IDEOGRAPHIC_TELEGRAPH_SYMBOL_FOR_DAY_TWENTY_TWO
  ; Cjk_IDEOGRAPHIC_TELEGRAPH_SYMBOL_FOR_DAY_TWENTY_THREE
  ; Cjk_IDEOGRAPHIC_TELEGRAPH_SYMBOL_FOR_DAY_TWENTY_FOUR
  ; Cjk_IDEOGRAPHIC_TELEGRAPH_SYMBOL_FOR_DAY_TWENTY_FIVE
  ; Cjk_IDEOGRAPHIC_TELEGRAPH_SYMBOL_FOR_DAY_TWENTY_SIX
  ; Cjk_IDEOGRAPHIC_TELEGRAPH_SYMBOL_FOR_DAY_TWENTY_SEVEN
  ; Cjk_IDEOGRAPHIC_TELEGRAPH_SYMBOL_FOR_DAY_TWENTY_EIGHT
  ; Cjk_IDEOGRAPHIC_TELEGRAPH_SYMBOL_FOR_DAY_TWENTY_NINE
  ; Cjk_IDEOGRAPHIC_TELEGRAPH_SYMBOL_FOR_DAY_THIRTY
  ; Cjk_IDEOGRAPHIC_TELEGRAPH_SYMBOL_FOR_DAY_THIRTY_ONE
  ; Cjk_SQUARE_GAL ].
Definition CJK_COMPATIBILITIES : corr := fun o => add_chain o 0 Cjk_SQUARE_APAATO CJK_COMPATIBILITIES_terms.

(** ** /repo/src/modifier/neologdn.rs *)
(** /repo/src/modifier/neologdn.rs:86-129 *)
Definition KANA_TEN : list (str * str) :=
  [ ([0x304B; 0x309B], [0x304C])
  ; ([0x304D; 0x309B], [0x304E])
  ; ([0x304F; 0x309B], [0x3050])
  ; ([0x3051; 0x309B], [0x3052])
  ; ([0x3053; 0x309B], [0x3054])
  ; ([0x3055; 0x309B], [0x3056])
  ; ([0x3057; 0x309B], [0x3058])
  ; ([0x3059; 0x309B], [0x305A])
  ; ([0x305B; 0x309B], [0x305C])
  ; ([0x305D; 0x309B], [0x305E])
  ; ([0x305F; 0x309B], [0x3060])
  ; ([0x3061; 0x309B], [0x3062])
  ; ([0x3064; 0x309B], [0x3065])
  ; ([0x3066; 0x309B], [0x3067])
  ; ([0x3068; 0x309B], [0x3069])
  ; ([0x306F; 0x309B], [0x3070])
  ; ([0x3072; 0x309B], [0x3073])
  ; ([0x3075; 0x309B], [0x3076])
  ; ([0x3078; 0x309B], [0x3079])
  ; ([0x307B; 0x309B], [0x307C])
  ; ([0x3046; 0x309B], [0x3094])
  ; ([0x30AB; 0x309B], [0x30AC])
  ; ([0x30AD; 0x309B], [0x30AE])
  ; ([0x30AF; 0x309B], [0x30B0])
  ; ([0x30B1; 0x309B], [0x30B2])
  ; ([0x30B3; 0x309B], [0x30B4])
  ; ([0x30B5; 0x309B], [0x30B6])
  ; ([0x30B7; 0x309B], [0x30B8])
  ; ([0x30B9; 0x309B], [0x30BA])
  ; ([0x30BB; 0x309B], [0x30BC])
  ; ([0x30BD; 0x309B], [0x30BE])
  ; ([0x30BF; 0x309B], [0x30C0])
  ; ([0x30C1; 0x309B], [0x30C2])
  ; ([0x30C4; 0x309B], [0x30C5])
  ; ([0x30C6; 0x309B], [0x30C7])
  ; ([0x30C8; 0x309B], [0x30C9])
  ; ([0x30CF; 0x309B], [0x30D0])
  ; ([0x30D2; 0x309B], [0x30D3])
  ; ([0x30D5; 0x309B], [0x30D6])
  ; ([0x30D8; 0x309B], [0x30D9])
  ; ([0x30DB; 0x309B], [0x30DC])
  ; ([0x30A6; 0x309B], [0x30F4]) ].
(** /repo/src/modifier/neologdn.rs:131-142 *)
Definition KANA_MARU : list (str * str) :=
  [ ([0x30CF; 0x309C], [0x30D1])
  ; ([0x30D2; 0x309C], [0x30D4])
  ; ([0x30D5; 0x309C], [0x30D7])
  ; ([0x30D8; 0x309C], [0x30DA])
  ; ([0x30DB; 0x309C], [0x30DD])
  ; ([0x306F; 0x309C], [0x3071])
  ; ([0x3072; 0x309C], [0x3074])
  ; ([0x3075; 0x309C], [0x3077])
  ; ([0x3078; 0x309C], [0x307A])
  ; ([0x307B; 0x309C], [0x307D]) ].
(** /repo/src/modifier/neologdn.rs:144-144 *)
Definition TILDES : list char := [0x7E; 0x223C; 0x223E; 0x301C; 0x3030; 0xFF5E].
(** /repo/src/modifier/neologdn.rs:147-149 *)
Definition CHOONPUS : corr := unification [[0xFE63]; [0xFF70]; [0x2014]; [0x2015]; [0x2500]; [0x2501]] [0x30FC].
(** /repo/src/modifier/neologdn.rs:151-157 *)
Definition HYPHENS : corr := unification [[0x2D7]; [0x58A]; [0x2010]; [0x2011]; [0x2012]; [0x2013]; [0x2043]; [0x207B]; [0x208B]; [0x2212]; [0xFF0D]] [0x2D].
