(** Generated by tools/mkspec.py from the Unicode Character Database; do not edit.
    Independent of /repo: reference data for the properties about character tables. *)
From Verif Require Import Base.
Local Open Scope N_scope.

(** Compatibility (full-width) forms of U+FF61 .. U+FF9D, in order. *)
Definition halfwidth_forms : list char :=
  [0x3002; 0x300C; 0x300D; 0x3001; 0x30FB; 0x30F2; 0x30A1; 0x30A3; 0x30A5; 0x30A7; 0x30A9; 0x30E3; 0x30E5; 0x30E7; 0x30C3; 0x30FC; 0x30A2; 0x30A4; 0x30A6; 0x30A8; 0x30AA; 0x30AB; 0x30AD; 0x30AF; 0x30B1; 0x30B3; 0x30B5; 0x30B7; 0x30B9; 0x30BB; 0x30BD; 0x30BF; 0x30C1; 0x30C4; 0x30C6; 0x30C8; 0x30CA; 0x30CB; 0x30CC; 0x30CD; 0x30CE; 0x30CF; 0x30D2; 0x30D5; 0x30D8; 0x30DB; 0x30DE; 0x30DF; 0x30E0; 0x30E1; 0x30E2; 0x30E4; 0x30E6; 0x30E8; 0x30E9; 0x30EA; 0x30EB; 0x30EC; 0x30ED; 0x30EF; 0x30F3].

(** NFKC of U+3300 .. U+33FF, in order. *)
Definition cjk_forms : list str :=
  [ [0x30A2; 0x30D1; 0x30FC; 0x30C8]
  ; [0x30A2; 0x30EB; 0x30D5; 0x30A1]
  ; [0x30A2; 0x30F3; 0x30DA; 0x30A2]
  ; [0x30A2; 0x30FC; 0x30EB]
  ; [0x30A4; 0x30CB; 0x30F3; 0x30B0]
  ; [0x30A4; 0x30F3; 0x30C1]
  ; [0x30A6; 0x30A9; 0x30F3]
  ; [0x30A8; 0x30B9; 0x30AF; 0x30FC; 0x30C9]
  ; [0x30A8; 0x30FC; 0x30AB; 0x30FC]
  ; [0x30AA; 0x30F3; 0x30B9]
  ; [0x30AA; 0x30FC; 0x30E0]
  ; [0x30AB; 0x30A4; 0x30EA]
  ; [0x30AB; 0x30E9; 0x30C3; 0x30C8]
  ; [0x30AB; 0x30ED; 0x30EA; 0x30FC]
  ; [0x30AC; 0x30ED; 0x30F3]
  ; [0x30AC; 0x30F3; 0x30DE]
  ; [0x30AE; 0x30AC]
  ; [0x30AE; 0x30CB; 0x30FC]
  ; [0x30AD; 0x30E5; 0x30EA; 0x30FC]
  ; [0x30AE; 0x30EB; 0x30C0; 0x30FC]
  ; [0x30AD; 0x30ED]
  ; [0x30AD; 0x30ED; 0x30B0; 0x30E9; 0x30E0]
  ; [0x30AD; 0x30ED; 0x30E1; 0x30FC; 0x30C8; 0x30EB]
  ; [0x30AD; 0x30ED; 0x30EF; 0x30C3; 0x30C8]
  ; [0x30B0; 0x30E9; 0x30E0]
  ; [0x30B0; 0x30E9; 0x30E0; 0x30C8; 0x30F3]
  ; [0x30AF; 0x30EB; 0x30BC; 0x30A4; 0x30ED]
  ; [0x30AF; 0x30ED; 0x30FC; 0x30CD]
  ; [0x30B1; 0x30FC; 0x30B9]
  ; [0x30B3; 0x30EB; 0x30CA]
  ; [0x30B3; 0x30FC; 0x30DD]
  ; [0x30B5; 0x30A4; 0x30AF; 0x30EB]
  ; [0x30B5; 0x30F3; 0x30C1; 0x30FC; 0x30E0]
  ; [0x30B7; 0x30EA; 0x30F3; 0x30B0]
  ; [0x30BB; 0x30F3; 0x30C1]
  ; [0x30BB; 0x30F3; 0x30C8]
  ; [0x30C0; 0x30FC; 0x30B9]
  ; [0x30C7; 0x30B7]
  ; [0x30C9; 0x30EB]
  ; [0x30C8; 0x30F3]
  ; [0x30CA; 0x30CE]
  ; [0x30CE; 0x30C3; 0x30C8]
  ; [0x30CF; 0x30A4; 0x30C4]
  ; [0x30D1; 0x30FC; 0x30BB; 0x30F3; 0x30C8]
  ; [0x30D1; 0x30FC; 0x30C4]
  ; [0x30D0; 0x30FC; 0x30EC; 0x30EB]
  ; [0x30D4; 0x30A2; 0x30B9; 0x30C8; 0x30EB]
  ; [0x30D4; 0x30AF; 0x30EB]
  ; [0x30D4; 0x30B3]
  ; [0x30D3; 0x30EB]
  ; [0x30D5; 0x30A1; 0x30E9; 0x30C3; 0x30C9]
  ; [0x30D5; 0x30A3; 0x30FC; 0x30C8]
  ; [0x30D6; 0x30C3; 0x30B7; 0x30A7; 0x30EB]
  ; [0x30D5; 0x30E9; 0x30F3]
  ; [0x30D8; 0x30AF; 0x30BF; 0x30FC; 0x30EB]
  ; [0x30DA; 0x30BD]
  ; [0x30DA; 0x30CB; 0x30D2]
  ; [0x30D8; 0x30EB; 0x30C4]
  ; [0x30DA; 0x30F3; 0x30B9]
  ; [0x30DA; 0x30FC; 0x30B8]
  ; [0x30D9; 0x30FC; 0x30BF]
  ; [0x30DD; 0x30A4; 0x30F3; 0x30C8]
  ; [0x30DC; 0x30EB; 0x30C8]
  ; [0x30DB; 0x30F3]
  ; [0x30DD; 0x30F3; 0x30C9]
  ; [0x30DB; 0x30FC; 0x30EB]
  ; [0x30DB; 0x30FC; 0x30F3]
  ; [0x30DE; 0x30A4; 0x30AF; 0x30ED]
  ; [0x30DE; 0x30A4; 0x30EB]
  ; [0x30DE; 0x30C3; 0x30CF]
  ; [0x30DE; 0x30EB; 0x30AF]
  ; [0x30DE; 0x30F3; 0x30B7; 0x30E7; 0x30F3]
  ; [0x30DF; 0x30AF; 0x30ED; 0x30F3]
  ; [0x30DF; 0x30EA]
  ; [0x30DF; 0x30EA; 0x30D0; 0x30FC; 0x30EB]
  ; [0x30E1; 0x30AC]
  ; [0x30E1; 0x30AC; 0x30C8; 0x30F3]
  ; [0x30E1; 0x30FC; 0x30C8; 0x30EB]
  ; [0x30E4; 0x30FC; 0x30C9]
  ; [0x30E4; 0x30FC; 0x30EB]
  ; [0x30E6; 0x30A2; 0x30F3]
  ; [0x30EA; 0x30C3; 0x30C8; 0x30EB]
  ; [0x30EA; 0x30E9]
  ; [0x30EB; 0x30D4; 0x30FC]
  ; [0x30EB; 0x30FC; 0x30D6; 0x30EB]
  ; [0x30EC; 0x30E0]
  ; [0x30EC; 0x30F3; 0x30C8; 0x30B2; 0x30F3]
  ; [0x30EF; 0x30C3; 0x30C8]
  ; [0x30; 0x70B9]
  ; [0x31; 0x70B9]
  ; [0x32; 0x70B9]
  ; [0x33; 0x70B9]
  ; [0x34; 0x70B9]
  ; [0x35; 0x70B9]
  ; [0x36; 0x70B9]
  ; [0x37; 0x70B9]
  ; [0x38; 0x70B9]
  ; [0x39; 0x70B9]
  ; [0x31; 0x30; 0x70B9]
  ; [0x31; 0x31; 0x70B9]
  ; [0x31; 0x32; 0x70B9]
  ; [0x31; 0x33; 0x70B9]
  ; [0x31; 0x34; 0x70B9]
  ; [0x31; 0x35; 0x70B9]
  ; [0x31; 0x36; 0x70B9]
  ; [0x31; 0x37; 0x70B9]
  ; [0x31; 0x38; 0x70B9]
  ; [0x31; 0x39; 0x70B9]
  ; [0x32; 0x30; 0x70B9]
  ; [0x32; 0x31; 0x70B9]
  ; [0x32; 0x32; 0x70B9]
  ; [0x32; 0x33; 0x70B9]
  ; [0x32; 0x34; 0x70B9]
  ; [0x68; 0x50; 0x61]
  ; [0x64; 0x61]
  ; [0x41; 0x55]
  ; [0x62; 0x61; 0x72]
  ; [0x6F; 0x56]
  ; [0x70; 0x63]
  ; [0x64; 0x6D]
  ; [0x64; 0x6D; 0x32]
  ; [0x64; 0x6D; 0x33]
  ; [0x49; 0x55]
  ; [0x5E73; 0x6210]
  ; [0x662D; 0x548C]
  ; [0x5927; 0x6B63]
  ; [0x660E; 0x6CBB]
  ; [0x682A; 0x5F0F; 0x4F1A; 0x793E]
  ; [0x70; 0x41]
  ; [0x6E; 0x41]
  ; [0x3BC; 0x41]
  ; [0x6D; 0x41]
  ; [0x6B; 0x41]
  ; [0x4B; 0x42]
  ; [0x4D; 0x42]
  ; [0x47; 0x42]
  ; [0x63; 0x61; 0x6C]
  ; [0x6B; 0x63; 0x61; 0x6C]
  ; [0x70; 0x46]
  ; [0x6E; 0x46]
  ; [0x3BC; 0x46]
  ; [0x3BC; 0x67]
  ; [0x6D; 0x67]
  ; [0x6B; 0x67]
  ; [0x48; 0x7A]
  ; [0x6B; 0x48; 0x7A]
  ; [0x4D; 0x48; 0x7A]
  ; [0x47; 0x48; 0x7A]
  ; [0x54; 0x48; 0x7A]
  ; [0x3BC; 0x6C]
  ; [0x6D; 0x6C]
  ; [0x64; 0x6C]
  ; [0x6B; 0x6C]
  ; [0x66; 0x6D]
  ; [0x6E; 0x6D]
  ; [0x3BC; 0x6D]
  ; [0x6D; 0x6D]
  ; [0x63; 0x6D]
  ; [0x6B; 0x6D]
  ; [0x6D; 0x6D; 0x32]
  ; [0x63; 0x6D; 0x32]
  ; [0x6D; 0x32]
  ; [0x6B; 0x6D; 0x32]
  ; [0x6D; 0x6D; 0x33]
  ; [0x63; 0x6D; 0x33]
  ; [0x6D; 0x33]
  ; [0x6B; 0x6D; 0x33]
  ; [0x6D; 0x2215; 0x73]
  ; [0x6D; 0x2215; 0x73; 0x32]
  ; [0x50; 0x61]
  ; [0x6B; 0x50; 0x61]
  ; [0x4D; 0x50; 0x61]
  ; [0x47; 0x50; 0x61]
  ; [0x72; 0x61; 0x64]
  ; [0x72; 0x61; 0x64; 0x2215; 0x73]
  ; [0x72; 0x61; 0x64; 0x2215; 0x73; 0x32]
  ; [0x70; 0x73]
  ; [0x6E; 0x73]
  ; [0x3BC; 0x73]
  ; [0x6D; 0x73]
  ; [0x70; 0x56]
  ; [0x6E; 0x56]
  ; [0x3BC; 0x56]
  ; [0x6D; 0x56]
  ; [0x6B; 0x56]
  ; [0x4D; 0x56]
  ; [0x70; 0x57]
  ; [0x6E; 0x57]
  ; [0x3BC; 0x57]
  ; [0x6D; 0x57]
  ; [0x6B; 0x57]
  ; [0x4D; 0x57]
  ; [0x6B; 0x3A9]
  ; [0x4D; 0x3A9]
  ; [0x61; 0x2E; 0x6D; 0x2E]
  ; [0x42; 0x71]
  ; [0x63; 0x63]
  ; [0x63; 0x64]
  ; [0x43; 0x2215; 0x6B; 0x67]
  ; [0x43; 0x6F; 0x2E]
  ; [0x64; 0x42]
  ; [0x47; 0x79]
  ; [0x68; 0x61]
  ; [0x48; 0x50]
  ; [0x69; 0x6E]
  ; [0x4B; 0x4B]
  ; [0x4B; 0x4D]
  ; [0x6B; 0x74]
  ; [0x6C; 0x6D]
  ; [0x6C; 0x6E]
  ; [0x6C; 0x6F; 0x67]
  ; [0x6C; 0x78]
  ; [0x6D; 0x62]
  ; [0x6D; 0x69; 0x6C]
  ; [0x6D; 0x6F; 0x6C]
  ; [0x50; 0x48]
  ; [0x70; 0x2E; 0x6D; 0x2E]
  ; [0x50; 0x50; 0x4D]
  ; [0x50; 0x52]
  ; [0x73; 0x72]
  ; [0x53; 0x76]
  ; [0x57; 0x62]
  ; [0x56; 0x2215; 0x6D]
  ; [0x41; 0x2215; 0x6D]
  ; [0x31; 0x65E5]
  ; [0x32; 0x65E5]
  ; [0x33; 0x65E5]
  ; [0x34; 0x65E5]
  ; [0x35; 0x65E5]
  ; [0x36; 0x65E5]
  ; [0x37; 0x65E5]
  ; [0x38; 0x65E5]
  ; [0x39; 0x65E5]
  ; [0x31; 0x30; 0x65E5]
  ; [0x31; 0x31; 0x65E5]
  ; [0x31; 0x32; 0x65E5]
  ; [0x31; 0x33; 0x65E5]
  ; [0x31; 0x34; 0x65E5]
  ; [0x31; 0x35; 0x65E5]
  ; [0x31; 0x36; 0x65E5]
  ; [0x31; 0x37; 0x65E5]
  ; [0x31; 0x38; 0x65E5]
  ; [0x31; 0x39; 0x65E5]
  ; [0x32; 0x30; 0x65E5]
  ; [0x32; 0x31; 0x65E5]
  ; [0x32; 0x32; 0x65E5]
  ; [0x32; 0x33; 0x65E5]
  ; [0x32; 0x34; 0x65E5]
  ; [0x32; 0x35; 0x65E5]
  ; [0x32; 0x36; 0x65E5]
  ; [0x32; 0x37; 0x65E5]
  ; [0x32; 0x38; 0x65E5]
  ; [0x32; 0x39; 0x65E5]
  ; [0x33; 0x30; 0x65E5]
  ; [0x33; 0x31; 0x65E5]
  ; [0x67; 0x61; 0x6C] ].

(** NFC of a kana followed by U+3099 (voiced) or U+309A (semi-voiced): (kana, composed), over
    the hiragana and katakana blocks. *)
Definition voiced_forms : list (char * char) :=
  [ (0x3046, 0x3094); (0x304B, 0x304C); (0x304D, 0x304E); (0x304F, 0x3050); (0x3051, 0x3052); (0x3053, 0x3054); (0x3055, 0x3056); (0x3057, 0x3058); (0x3059, 0x305A); (0x305B, 0x305C); (0x305D, 0x305E); (0x305F, 0x3060); (0x3061, 0x3062); (0x3064, 0x3065); (0x3066, 0x3067); (0x3068, 0x3069); (0x306F, 0x3070); (0x3072, 0x3073); (0x3075, 0x3076); (0x3078, 0x3079); (0x307B, 0x307C); (0x309D, 0x309E); (0x30A6, 0x30F4); (0x30AB, 0x30AC); (0x30AD, 0x30AE); (0x30AF, 0x30B0); (0x30B1, 0x30B2); (0x30B3, 0x30B4); (0x30B5, 0x30B6); (0x30B7, 0x30B8); (0x30B9, 0x30BA); (0x30BB, 0x30BC); (0x30BD, 0x30BE); (0x30BF, 0x30C0); (0x30C1, 0x30C2); (0x30C4, 0x30C5); (0x30C6, 0x30C7); (0x30C8, 0x30C9); (0x30CF, 0x30D0); (0x30D2, 0x30D3); (0x30D5, 0x30D6); (0x30D8, 0x30D9); (0x30DB, 0x30DC); (0x30EF, 0x30F7); (0x30F0, 0x30F8); (0x30F1, 0x30F9); (0x30F2, 0x30FA); (0x30FD, 0x30FE) ].
Definition semivoiced_forms : list (char * char) :=
  [ (0x306F, 0x3071); (0x3072, 0x3074); (0x3075, 0x3077); (0x3078, 0x307A); (0x307B, 0x307D); (0x30CF, 0x30D1); (0x30D2, 0x30D4); (0x30D5, 0x30D7); (0x30D8, 0x30DA); (0x30DB, 0x30DD) ].
