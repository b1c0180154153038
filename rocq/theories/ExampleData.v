(** Generated by tools/mkexamples.py from /repo/examples/file; do not edit. *)
From Verif Require Import Base Yaml.
Local Open Scope N_scope.

(** The bytes of /repo/examples/file/table.csv. *)
Definition example_csv : list N :=
  [102; 114; 111; 109; 44; 116; 111; 10; 126; 44; 126; 10; 203; 151; 44; 45; 10; 214; 138; 44; 45; 10; 226; 128; 144; 44; 45; 10; 226; 128;
   145; 44; 45; 10; 226; 128; 146; 44; 45; 10; 226; 128; 147; 44; 45; 10; 226; 128; 148; 44; 227; 131; 188; 10; 226; 128; 149; 44; 227; 131;
   188; 10; 226; 128; 153; 44; 39; 10; 226; 128; 157; 44; 34; 34; 34; 34; 10; 226; 129; 131; 44; 45; 10; 226; 129; 187; 44; 45; 10; 226;
   130; 139; 44; 45; 10; 226; 136; 146; 44; 45; 10; 226; 136; 188; 44; 126; 10; 226; 136; 190; 44; 126; 10; 226; 148; 128; 44; 227; 131; 188;
   10; 226; 148; 129; 44; 227; 131; 188; 10; 227; 128; 156; 44; 126; 10; 227; 128; 176; 44; 126; 10; 227; 140; 128; 44; 227; 130; 162; 227; 131;
   145; 227; 131; 188; 227; 131; 136; 10; 227; 140; 129; 44; 227; 130; 162; 227; 131; 171; 227; 131; 149; 227; 130; 161; 10; 227; 140; 130; 44; 227;
   130; 162; 227; 131; 179; 227; 131; 154; 227; 130; 162; 10; 227; 140; 131; 44; 227; 130; 162; 227; 131; 188; 227; 131; 171; 10; 227; 140; 132; 44;
   227; 130; 164; 227; 131; 139; 227; 131; 179; 227; 130; 176; 10; 227; 140; 133; 44; 227; 130; 164; 227; 131; 179; 227; 131; 129; 10; 227; 140; 134;
   44; 227; 130; 166; 227; 130; 169; 227; 131; 179; 10; 227; 140; 135; 44; 227; 130; 168; 227; 130; 185; 227; 130; 175; 227; 131; 188; 227; 131; 137;
   10; 227; 140; 136; 44; 227; 130; 168; 227; 131; 188; 227; 130; 171; 227; 131; 188; 10; 227; 140; 137; 44; 227; 130; 170; 227; 131; 179; 227; 130;
   185; 10; 227; 140; 138; 44; 227; 130; 170; 227; 131; 188; 227; 131; 160; 10; 227; 140; 139; 44; 227; 130; 171; 227; 130; 164; 227; 131; 170; 10;
   227; 140; 140; 44; 227; 130; 171; 227; 131; 169; 227; 131; 131; 227; 131; 136; 10; 227; 140; 141; 44; 227; 130; 171; 227; 131; 173; 227; 131; 170;
   227; 131; 188; 10; 227; 140; 142; 44; 227; 130; 172; 227; 131; 173; 227; 131; 179; 10; 227; 140; 143; 44; 227; 130; 172; 227; 131; 179; 227; 131;
   158; 10; 227; 140; 144; 44; 227; 130; 174; 227; 130; 172; 10; 227; 140; 145; 44; 227; 130; 174; 227; 131; 139; 227; 131; 188; 10; 227; 140; 146;
   44; 227; 130; 173; 227; 131; 165; 227; 131; 170; 227; 131; 188; 10; 227; 140; 147; 44; 227; 130; 174; 227; 131; 171; 227; 131; 128; 227; 131; 188;
   10; 227; 140; 148; 44; 227; 130; 173; 227; 131; 173; 10; 227; 140; 149; 44; 227; 130; 173; 227; 131; 173; 227; 130; 176; 227; 131; 169; 227; 131;
   160; 10; 227; 140; 150; 44; 227; 130; 173; 227; 131; 173; 227; 131; 161; 227; 131; 188; 227; 131; 136; 227; 131; 171; 10; 227; 140; 151; 44; 227;
   130; 173; 227; 131; 173; 227; 131; 175; 227; 131; 131; 227; 131; 136; 10; 227; 140; 152; 44; 227; 130; 176; 227; 131; 169; 227; 131; 160; 10; 227;
   140; 153; 44; 227; 130; 176; 227; 131; 169; 227; 131; 160; 227; 131; 136; 227; 131; 179; 10; 227; 140; 154; 44; 227; 130; 175; 227; 131; 171; 227;
   130; 188; 227; 130; 164; 227; 131; 173; 10; 227; 140; 155; 44; 227; 130; 175; 227; 131; 173; 227; 131; 188; 227; 131; 141; 10; 227; 140; 156; 44;
   227; 130; 177; 227; 131; 188; 227; 130; 185; 10; 227; 140; 157; 44; 227; 130; 179; 227; 131; 171; 227; 131; 138; 10; 227; 140; 158; 44; 227; 130;
   179; 227; 131; 188; 227; 131; 157; 10; 227; 140; 159; 44; 227; 130; 181; 227; 130; 164; 227; 130; 175; 227; 131; 171; 10; 227; 140; 160; 44; 227;
   130; 181; 227; 131; 179; 227; 131; 129; 227; 131; 188; 227; 131; 160; 10; 227; 140; 161; 44; 227; 130; 183; 227; 131; 170; 227; 131; 179; 227; 130;
   176; 10; 227; 140; 162; 44; 227; 130; 187; 227; 131; 179; 227; 131; 129; 10; 227; 140; 163; 44; 227; 130; 187; 227; 131; 179; 227; 131; 136; 10;
   227; 140; 164; 44; 227; 131; 128; 227; 131; 188; 227; 130; 185; 10; 227; 140; 165; 44; 227; 131; 135; 227; 130; 183; 10; 227; 140; 166; 44; 227;
   131; 137; 227; 131; 171; 10; 227; 140; 167; 44; 227; 131; 136; 227; 131; 179; 10; 227; 140; 168; 44; 227; 131; 138; 227; 131; 142; 10; 227; 140;
   169; 44; 227; 131; 142; 227; 131; 131; 227; 131; 136; 10; 227; 140; 170; 44; 227; 131; 143; 227; 130; 164; 227; 131; 132; 10; 227; 140; 171; 44;
   227; 131; 145; 227; 131; 188; 227; 130; 187; 227; 131; 179; 227; 131; 136; 10; 227; 140; 172; 44; 227; 131; 145; 227; 131; 188; 227; 131; 132; 10;
   227; 140; 173; 44; 227; 131; 144; 227; 131; 188; 227; 131; 172; 227; 131; 171; 10; 227; 140; 174; 44; 227; 131; 148; 227; 130; 162; 227; 130; 185;
   227; 131; 136; 227; 131; 171; 10; 227; 140; 175; 44; 227; 131; 148; 227; 130; 175; 227; 131; 171; 10; 227; 140; 176; 44; 227; 131; 148; 227; 130;
   179; 10; 227; 140; 177; 44; 227; 131; 147; 227; 131; 171; 10; 227; 140; 178; 44; 227; 131; 149; 227; 130; 161; 227; 131; 169; 227; 131; 131; 227;
   131; 137; 10; 227; 140; 179; 44; 227; 131; 149; 227; 130; 163; 227; 131; 188; 227; 131; 136; 10; 227; 140; 180; 44; 227; 131; 150; 227; 131; 131;
   227; 130; 183; 227; 130; 167; 227; 131; 171; 10; 227; 140; 181; 44; 227; 131; 149; 227; 131; 169; 227; 131; 179; 10; 227; 140; 182; 44; 227; 131;
   152; 227; 130; 175; 227; 130; 191; 227; 131; 188; 227; 131; 171; 10; 227; 140; 183; 44; 227; 131; 154; 227; 130; 189; 10; 227; 140; 184; 44; 227;
   131; 154; 227; 131; 139; 227; 131; 146; 10; 227; 140; 185; 44; 227; 131; 152; 227; 131; 171; 227; 131; 132; 10; 227; 140; 186; 44; 227; 131; 154;
   227; 131; 179; 227; 130; 185; 10; 227; 140; 187; 44; 227; 131; 154; 227; 131; 188; 227; 130; 184; 10; 227; 140; 188; 44; 227; 131; 153; 227; 131;
   188; 227; 130; 191; 10; 227; 140; 189; 44; 227; 131; 157; 227; 130; 164; 227; 131; 179; 227; 131; 136; 10; 227; 140; 190; 44; 227; 131; 156; 227;
   131; 171; 227; 131; 136; 10; 227; 140; 191; 44; 227; 131; 155; 227; 131; 179; 10; 227; 141; 128; 44; 227; 131; 157; 227; 131; 179; 227; 131; 137;
   10; 227; 141; 129; 44; 227; 131; 155; 227; 131; 188; 227; 131; 171; 10; 227; 141; 130; 44; 227; 131; 155; 227; 131; 188; 227; 131; 179; 10; 227;
   141; 131; 44; 227; 131; 158; 227; 130; 164; 227; 130; 175; 227; 131; 173; 10; 227; 141; 132; 44; 227; 131; 158; 227; 130; 164; 227; 131; 171; 10;
   227; 141; 133; 44; 227; 131; 158; 227; 131; 131; 227; 131; 143; 10; 227; 141; 134; 44; 227; 131; 158; 227; 131; 171; 227; 130; 175; 10; 227; 141;
   135; 44; 227; 131; 158; 227; 131; 179; 227; 130; 183; 227; 131; 167; 227; 131; 179; 10; 227; 141; 136; 44; 227; 131; 159; 227; 130; 175; 227; 131;
   173; 227; 131; 179; 10; 227; 141; 137; 44; 227; 131; 159; 227; 131; 170; 10; 227; 141; 138; 44; 227; 131; 159; 227; 131; 170; 227; 131; 144; 227;
   131; 188; 227; 131; 171; 10; 227; 141; 139; 44; 227; 131; 161; 227; 130; 172; 10; 227; 141; 140; 44; 227; 131; 161; 227; 130; 172; 227; 131; 136;
   227; 131; 179; 10; 227; 141; 141; 44; 227; 131; 161; 227; 131; 188; 227; 131; 136; 227; 131; 171; 10; 227; 141; 142; 44; 227; 131; 164; 227; 131;
   188; 227; 131; 137; 10; 227; 141; 143; 44; 227; 131; 164; 227; 131; 188; 227; 131; 171; 10; 227; 141; 144; 44; 227; 131; 166; 227; 130; 162; 227;
   131; 179; 10; 227; 141; 145; 44; 227; 131; 170; 227; 131; 131; 227; 131; 136; 227; 131; 171; 10; 227; 141; 146; 44; 227; 131; 170; 227; 131; 169;
   10; 227; 141; 147; 44; 227; 131; 171; 227; 131; 148; 227; 131; 188; 10; 227; 141; 148; 44; 227; 131; 171; 227; 131; 188; 227; 131; 150; 227; 131;
   171; 10; 227; 141; 149; 44; 227; 131; 172; 227; 131; 160; 10; 227; 141; 150; 44; 227; 131; 172; 227; 131; 179; 227; 131; 136; 227; 130; 178; 227;
   131; 179; 10; 227; 141; 151; 44; 227; 131; 175; 227; 131; 131; 227; 131; 136; 10; 227; 141; 152; 44; 48; 231; 130; 185; 10; 227; 141; 153; 44;
   49; 231; 130; 185; 10; 227; 141; 154; 44; 50; 231; 130; 185; 10; 227; 141; 155; 44; 51; 231; 130; 185; 10; 227; 141; 156; 44; 52; 231; 130;
   185; 10; 227; 141; 157; 44; 53; 231; 130; 185; 10; 227; 141; 158; 44; 54; 231; 130; 185; 10; 227; 141; 159; 44; 55; 231; 130; 185; 10; 227;
   141; 160; 44; 56; 231; 130; 185; 10; 227; 141; 161; 44; 57; 231; 130; 185; 10; 227; 141; 162; 44; 49; 48; 231; 130; 185; 10; 227; 141; 163;
   44; 49; 49; 231; 130; 185; 10; 227; 141; 164; 44; 49; 50; 231; 130; 185; 10; 227; 141; 165; 44; 49; 51; 231; 130; 185; 10; 227; 141; 166;
   44; 49; 52; 231; 130; 185; 10; 227; 141; 167; 44; 49; 53; 231; 130; 185; 10; 227; 141; 168; 44; 49; 54; 231; 130; 185; 10; 227; 141; 169;
   44; 49; 55; 231; 130; 185; 10; 227; 141; 170; 44; 49; 56; 231; 130; 185; 10; 227; 141; 171; 44; 49; 57; 231; 130; 185; 10; 227; 141; 172;
   44; 50; 48; 231; 130; 185; 10; 227; 141; 173; 44; 50; 49; 231; 130; 185; 10; 227; 141; 174; 44; 50; 50; 231; 130; 185; 10; 227; 141; 175;
   44; 50; 51; 231; 130; 185; 10; 227; 141; 176; 44; 50; 52; 231; 130; 185; 10; 227; 141; 177; 44; 104; 80; 97; 10; 227; 141; 178; 44; 100;
   97; 10; 227; 141; 179; 44; 65; 85; 10; 227; 141; 180; 44; 98; 97; 114; 10; 227; 141; 181; 44; 111; 86; 10; 227; 141; 182; 44; 112; 99;
   10; 227; 141; 183; 44; 100; 109; 10; 227; 141; 184; 44; 100; 109; 50; 10; 227; 141; 185; 44; 100; 109; 51; 10; 227; 141; 186; 44; 73; 85;
   10; 227; 141; 187; 44; 229; 185; 179; 230; 136; 144; 10; 227; 141; 188; 44; 230; 152; 173; 229; 146; 140; 10; 227; 141; 189; 44; 229; 164; 167;
   230; 173; 163; 10; 227; 141; 190; 44; 230; 152; 142; 230; 178; 187; 10; 227; 141; 191; 44; 230; 160; 170; 229; 188; 143; 228; 188; 154; 231; 164;
   190; 10; 227; 142; 128; 44; 112; 65; 10; 227; 142; 129; 44; 110; 65; 10; 227; 142; 130; 44; 194; 181; 65; 10; 227; 142; 131; 44; 109; 65;
   10; 227; 142; 132; 44; 107; 65; 10; 227; 142; 133; 44; 75; 66; 10; 227; 142; 134; 44; 77; 66; 10; 227; 142; 135; 44; 71; 66; 10; 227;
   142; 136; 44; 99; 97; 108; 10; 227; 142; 137; 44; 107; 99; 97; 108; 10; 227; 142; 138; 44; 112; 70; 10; 227; 142; 139; 44; 110; 70; 10;
   227; 142; 140; 44; 194; 181; 70; 10; 227; 142; 141; 44; 194; 181; 103; 10; 227; 142; 142; 44; 109; 103; 10; 227; 142; 143; 44; 107; 103; 10;
   227; 142; 144; 44; 72; 122; 10; 227; 142; 145; 44; 107; 72; 122; 10; 227; 142; 146; 44; 77; 72; 122; 10; 227; 142; 147; 44; 71; 72; 122;
   10; 227; 142; 148; 44; 84; 72; 122; 10; 227; 142; 149; 44; 194; 181; 108; 10; 227; 142; 150; 44; 109; 108; 10; 227; 142; 151; 44; 100; 108;
   10; 227; 142; 152; 44; 107; 108; 10; 227; 142; 153; 44; 102; 109; 10; 227; 142; 154; 44; 110; 109; 10; 227; 142; 155; 44; 194; 181; 109; 10;
   227; 142; 156; 44; 109; 109; 10; 227; 142; 157; 44; 99; 109; 10; 227; 142; 158; 44; 107; 109; 10; 227; 142; 159; 44; 109; 109; 10; 227; 142;
   160; 44; 99; 109; 50; 10; 227; 142; 161; 44; 109; 50; 10; 227; 142; 162; 44; 107; 109; 50; 10; 227; 142; 163; 44; 99; 109; 51; 10; 227;
   142; 163; 44; 109; 109; 51; 10; 227; 142; 165; 44; 109; 51; 10; 227; 142; 166; 44; 107; 109; 51; 10; 227; 142; 167; 44; 109; 47; 115; 10;
   227; 142; 168; 44; 109; 47; 115; 50; 10; 227; 142; 169; 44; 80; 97; 10; 227; 142; 170; 44; 107; 80; 97; 10; 227; 142; 171; 44; 77; 80;
   97; 10; 227; 142; 172; 44; 71; 80; 97; 10; 227; 142; 173; 44; 114; 97; 100; 10; 227; 142; 174; 44; 114; 97; 100; 47; 115; 10; 227; 142;
   175; 44; 114; 97; 100; 47; 115; 50; 10; 227; 142; 176; 44; 112; 115; 10; 227; 142; 177; 44; 110; 115; 10; 227; 142; 178; 44; 194; 181; 115;
   10; 227; 142; 179; 44; 109; 115; 10; 227; 142; 180; 44; 112; 86; 10; 227; 142; 181; 44; 110; 86; 10; 227; 142; 182; 44; 194; 181; 86; 10;
   227; 142; 183; 44; 109; 86; 10; 227; 142; 184; 44; 107; 86; 10; 227; 142; 185; 44; 77; 86; 10; 227; 142; 186; 44; 112; 87; 10; 227; 142;
   187; 44; 110; 87; 10; 227; 142; 188; 44; 194; 181; 87; 10; 227; 142; 189; 44; 109; 87; 10; 227; 142; 190; 44; 107; 87; 10; 227; 142; 191;
   44; 77; 87; 10; 227; 143; 128; 44; 107; 206; 169; 10; 227; 143; 129; 44; 77; 206; 169; 10; 227; 143; 130; 44; 97; 46; 109; 46; 10; 227;
   143; 131; 44; 66; 113; 10; 227; 143; 132; 44; 99; 99; 10; 227; 143; 133; 44; 99; 100; 10; 227; 143; 134; 44; 67; 47; 107; 103; 10; 227;
   143; 135; 44; 67; 111; 46; 10; 227; 143; 136; 44; 100; 66; 10; 227; 143; 137; 44; 71; 121; 10; 227; 143; 138; 44; 104; 97; 10; 227; 143;
   139; 44; 72; 80; 10; 227; 143; 140; 44; 105; 110; 10; 227; 143; 141; 44; 75; 46; 10; 227; 143; 142; 44; 75; 77; 10; 227; 143; 143; 44;
   107; 116; 10; 227; 143; 144; 44; 108; 109; 10; 227; 143; 145; 44; 108; 110; 10; 227; 143; 146; 44; 108; 111; 103; 10; 227; 143; 147; 44; 108;
   120; 10; 227; 143; 148; 44; 109; 98; 10; 227; 143; 149; 44; 109; 105; 108; 10; 227; 143; 150; 44; 109; 111; 108; 10; 227; 143; 151; 44; 112;
   72; 10; 227; 143; 152; 44; 112; 46; 109; 46; 10; 227; 143; 153; 44; 112; 112; 109; 10; 227; 143; 154; 44; 80; 82; 10; 227; 143; 155; 44;
   115; 114; 10; 227; 143; 156; 44; 83; 118; 10; 227; 143; 157; 44; 87; 98; 10; 227; 143; 158; 44; 86; 47; 109; 10; 227; 143; 159; 44; 65;
   47; 109; 10; 227; 143; 160; 44; 49; 230; 151; 165; 10; 227; 143; 161; 44; 50; 230; 151; 165; 10; 227; 143; 162; 44; 51; 230; 151; 165; 10;
   227; 143; 163; 44; 52; 230; 151; 165; 10; 227; 143; 164; 44; 53; 230; 151; 165; 10; 227; 143; 165; 44; 54; 230; 151; 165; 10; 227; 143; 166;
   44; 55; 230; 151; 165; 10; 227; 143; 167; 44; 56; 230; 151; 165; 10; 227; 143; 168; 44; 57; 230; 151; 165; 10; 227; 143; 169; 44; 49; 48;
   230; 151; 165; 10; 227; 143; 170; 44; 49; 49; 230; 151; 165; 10; 227; 143; 171; 44; 49; 50; 230; 151; 165; 10; 227; 143; 172; 44; 49; 51;
   230; 151; 165; 10; 227; 143; 173; 44; 49; 52; 230; 151; 165; 10; 227; 143; 174; 44; 49; 53; 230; 151; 165; 10; 227; 143; 175; 44; 49; 54;
   230; 151; 165; 10; 227; 143; 176; 44; 49; 55; 230; 151; 165; 10; 227; 143; 177; 44; 49; 56; 230; 151; 165; 10; 227; 143; 178; 44; 49; 57;
   230; 151; 165; 10; 227; 143; 179; 44; 50; 48; 230; 151; 165; 10; 227; 143; 180; 44; 50; 49; 230; 151; 165; 10; 227; 143; 181; 44; 50; 50;
   230; 151; 165; 10; 227; 143; 182; 44; 50; 51; 230; 151; 165; 10; 227; 143; 183; 44; 50; 52; 230; 151; 165; 10; 227; 143; 184; 44; 50; 53;
   230; 151; 165; 10; 227; 143; 185; 44; 50; 54; 230; 151; 165; 10; 227; 143; 186; 44; 50; 55; 230; 151; 165; 10; 227; 143; 187; 44; 50; 56;
   230; 151; 165; 10; 227; 143; 188; 44; 50; 57; 230; 151; 165; 10; 227; 143; 189; 44; 51; 48; 230; 151; 165; 10; 227; 143; 190; 44; 51; 49;
   230; 151; 165; 10; 227; 143; 191; 44; 103; 97; 108; 10; 239; 185; 163; 44; 227; 131; 188; 10; 239; 188; 129; 44; 33; 10; 239; 188; 131; 44;
   35; 10; 239; 188; 132; 44; 36; 10; 239; 188; 133; 44; 37; 10; 239; 188; 134; 44; 38; 10; 239; 188; 136; 44; 40; 10; 239; 188; 137; 44;
   41; 10; 239; 188; 138; 44; 42; 10; 239; 188; 139; 44; 43; 10; 239; 188; 140; 44; 34; 44; 34; 10; 239; 188; 141; 44; 227; 131; 188; 10;
   239; 188; 142; 44; 46; 10; 239; 188; 143; 44; 47; 10; 239; 188; 144; 44; 48; 10; 239; 188; 145; 44; 49; 10; 239; 188; 146; 44; 50; 10;
   239; 188; 147; 44; 51; 10; 239; 188; 148; 44; 52; 10; 239; 188; 149; 44; 53; 10; 239; 188; 150; 44; 54; 10; 239; 188; 151; 44; 55; 10;
   239; 188; 152; 44; 56; 10; 239; 188; 153; 44; 57; 10; 239; 188; 154; 44; 58; 10; 239; 188; 155; 44; 59; 10; 239; 188; 156; 44; 60; 10;
   239; 188; 157; 44; 61; 10; 239; 188; 158; 44; 62; 10; 239; 188; 159; 44; 63; 10; 239; 188; 160; 44; 64; 10; 239; 188; 161; 44; 65; 10;
   239; 188; 162; 44; 66; 10; 239; 188; 163; 44; 67; 10; 239; 188; 164; 44; 68; 10; 239; 188; 165; 44; 69; 10; 239; 188; 166; 44; 70; 10;
   239; 188; 167; 44; 71; 10; 239; 188; 168; 44; 72; 10; 239; 188; 169; 44; 73; 10; 239; 188; 170; 44; 74; 10; 239; 188; 171; 44; 75; 10;
   239; 188; 172; 44; 76; 10; 239; 188; 173; 44; 77; 10; 239; 188; 174; 44; 78; 10; 239; 188; 175; 44; 79; 10; 239; 188; 176; 44; 80; 10;
   239; 188; 177; 44; 81; 10; 239; 188; 178; 44; 82; 10; 239; 188; 179; 44; 83; 10; 239; 188; 180; 44; 84; 10; 239; 188; 181; 44; 85; 10;
   239; 188; 182; 44; 86; 10; 239; 188; 183; 44; 87; 10; 239; 188; 184; 44; 88; 10; 239; 188; 185; 44; 89; 10; 239; 188; 186; 44; 90; 10;
   239; 188; 187; 44; 91; 10; 239; 188; 188; 44; 92; 10; 239; 188; 189; 44; 93; 10; 239; 188; 190; 44; 94; 10; 239; 188; 191; 44; 95; 10;
   239; 189; 128; 44; 96; 10; 239; 189; 129; 44; 97; 10; 239; 189; 130; 44; 98; 10; 239; 189; 131; 44; 99; 10; 239; 189; 132; 44; 100; 10;
   239; 189; 133; 44; 101; 10; 239; 189; 134; 44; 102; 10; 239; 189; 135; 44; 103; 10; 239; 189; 136; 44; 104; 10; 239; 189; 137; 44; 105; 10;
   239; 189; 138; 44; 106; 10; 239; 189; 139; 44; 107; 10; 239; 189; 140; 44; 108; 10; 239; 189; 141; 44; 109; 10; 239; 189; 142; 44; 110; 10;
   239; 189; 143; 44; 111; 10; 239; 189; 144; 44; 112; 10; 239; 189; 145; 44; 113; 10; 239; 189; 146; 44; 114; 10; 239; 189; 147; 44; 115; 10;
   239; 189; 148; 44; 116; 10; 239; 189; 149; 44; 117; 10; 239; 189; 150; 44; 118; 10; 239; 189; 151; 44; 119; 10; 239; 189; 152; 44; 120; 10;
   239; 189; 153; 44; 121; 10; 239; 189; 154; 44; 122; 10; 239; 189; 155; 44; 123; 10; 239; 189; 156; 44; 124; 10; 239; 189; 157; 44; 125; 10;
   239; 189; 158; 44; 126; 10; 239; 189; 161; 44; 227; 128; 130; 10; 239; 189; 162; 44; 227; 128; 140; 10; 239; 189; 163; 44; 227; 128; 141; 10;
   239; 189; 164; 44; 227; 128; 129; 10; 239; 189; 165; 44; 227; 131; 187; 10; 239; 189; 166; 44; 227; 131; 178; 10; 239; 189; 167; 44; 227; 130;
   161; 10; 239; 189; 168; 44; 227; 130; 163; 10; 239; 189; 169; 44; 227; 130; 165; 10; 239; 189; 170; 44; 227; 130; 167; 10; 239; 189; 171; 44;
   227; 130; 169; 10; 239; 189; 172; 44; 227; 131; 163; 10; 239; 189; 173; 44; 227; 131; 165; 10; 239; 189; 174; 44; 227; 131; 167; 10; 239; 189;
   175; 44; 227; 131; 131; 10; 239; 189; 176; 44; 227; 131; 188; 10; 239; 189; 177; 44; 227; 130; 162; 10; 239; 189; 178; 44; 227; 130; 164; 10;
   239; 189; 179; 44; 227; 130; 166; 10; 239; 189; 180; 44; 227; 130; 168; 10; 239; 189; 181; 44; 227; 130; 170; 10; 239; 189; 182; 44; 227; 130;
   171; 10; 239; 189; 183; 44; 227; 130; 173; 10; 239; 189; 184; 44; 227; 130; 175; 10; 239; 189; 185; 44; 227; 130; 177; 10; 239; 189; 186; 44;
   227; 130; 179; 10; 239; 189; 187; 44; 227; 130; 181; 10; 239; 189; 188; 44; 227; 130; 183; 10; 239; 189; 189; 44; 227; 130; 185; 10; 239; 189;
   190; 44; 227; 130; 187; 10; 239; 189; 191; 44; 227; 130; 189; 10; 239; 190; 128; 44; 227; 130; 191; 10; 239; 190; 129; 44; 227; 131; 129; 10;
   239; 190; 130; 44; 227; 131; 132; 10; 239; 190; 131; 44; 227; 131; 134; 10; 239; 190; 132; 44; 227; 131; 136; 10; 239; 190; 133; 44; 227; 131;
   138; 10; 239; 190; 134; 44; 227; 131; 139; 10; 239; 190; 135; 44; 227; 131; 140; 10; 239; 190; 136; 44; 227; 131; 141; 10; 239; 190; 137; 44;
   227; 131; 142; 10; 239; 190; 138; 44; 227; 131; 143; 10; 239; 190; 139; 44; 227; 131; 146; 10; 239; 190; 140; 44; 227; 131; 149; 10; 239; 190;
   141; 44; 227; 131; 152; 10; 239; 190; 142; 44; 227; 131; 155; 10; 239; 190; 143; 44; 227; 131; 158; 10; 239; 190; 144; 44; 227; 131; 159; 10;
   239; 190; 145; 44; 227; 131; 160; 10; 239; 190; 146; 44; 227; 131; 161; 10; 239; 190; 147; 44; 227; 131; 162; 10; 239; 190; 148; 44; 227; 131;
   164; 10; 239; 190; 149; 44; 227; 131; 166; 10; 239; 190; 150; 44; 227; 131; 168; 10; 239; 190; 151; 44; 227; 131; 169; 10; 239; 190; 152; 44;
   227; 131; 170; 10; 239; 190; 153; 44; 227; 131; 171; 10; 239; 190; 154; 44; 227; 131; 172; 10; 239; 190; 155; 44; 227; 131; 173; 10; 239; 190;
   156; 44; 227; 131; 175; 10; 239; 190; 157; 44; 227; 131; 179; 10; 10].

(** The document in /repo/examples/file/table.yaml: pairs of the values of from and to. *)
Definition example_yaml_pairs : list (str * str) :=
  [ ([0x7E], [0x7E])
  ; ([0x2D7], [0x2D])
  ; ([0x58A], [0x2D])
  ; ([0x2010], [0x2D])
  ; ([0x2011], [0x2D])
  ; ([0x2012], [0x2D])
  ; ([0x2013], [0x2D])
  ; ([0x2014], [0x30FC])
  ; ([0x2015], [0x30FC])
  ; ([0x2019], [0x27])
  ; ([0x201D], [0x22])
  ; ([0x2043], [0x2D])
  ; ([0x207B], [0x2D])
  ; ([0x208B], [0x2D])
  ; ([0x2212], [0x2D])
  ; ([0x223C], [0x7E])
  ; ([0x223E], [0x7E])
  ; ([0x2500], [0x30FC])
  ; ([0x2501], [0x30FC])
  ; ([0x301C], [0x7E])
  ; ([0x3030], [0x7E])
  ; ([0x3300], [0x30A2; 0x30D1; 0x30FC; 0x30C8])
  ; ([0x3301], [0x30A2; 0x30EB; 0x30D5; 0x30A1])
  ; ([0x3302], [0x30A2; 0x30F3; 0x30DA; 0x30A2])
  ; ([0x3303], [0x30A2; 0x30FC; 0x30EB])
  ; ([0x3304], [0x30A4; 0x30CB; 0x30F3; 0x30B0])
  ; ([0x3305], [0x30A4; 0x30F3; 0x30C1])
  ; ([0x3306], [0x30A6; 0x30A9; 0x30F3])
  ; ([0x3307], [0x30A8; 0x30B9; 0x30AF; 0x30FC; 0x30C9])
  ; ([0x3308], [0x30A8; 0x30FC; 0x30AB; 0x30FC])
  ; ([0x3309], [0x30AA; 0x30F3; 0x30B9])
  ; ([0x330A], [0x30AA; 0x30FC; 0x30E0])
  ; ([0x330B], [0x30AB; 0x30A4; 0x30EA])
  ; ([0x330C], [0x30AB; 0x30E9; 0x30C3; 0x30C8])
  ; ([0x330D], [0x30AB; 0x30ED; 0x30EA; 0x30FC])
  ; ([0x330E], [0x30AC; 0x30ED; 0x30F3])
  ; ([0x330F], [0x30AC; 0x30F3; 0x30DE])
  ; ([0x3310], [0x30AE; 0x30AC])
  ; ([0x3311], [0x30AE; 0x30CB; 0x30FC])
  ; ([0x3312], [0x30AD; 0x30E5; 0x30EA; 0x30FC])
  ; ([0x3313], [0x30AE; 0x30EB; 0x30C0; 0x30FC])
  ; ([0x3314], [0x30AD; 0x30ED])
  ; ([0x3315], [0x30AD; 0x30ED; 0x30B0; 0x30E9; 0x30E0])
  ; ([0x3316], [0x30AD; 0x30ED; 0x30E1; 0x30FC; 0x30C8; 0x30EB])
  ; ([0x3317], [0x30AD; 0x30ED; 0x30EF; 0x30C3; 0x30C8])
  ; ([0x3318], [0x30B0; 0x30E9; 0x30E0])
  ; ([0x3319], [0x30B0; 0x30E9; 0x30E0; 0x30C8; 0x30F3])
  ; ([0x331A], [0x30AF; 0x30EB; 0x30BC; 0x30A4; 0x30ED])
  ; ([0x331B], [0x30AF; 0x30ED; 0x30FC; 0x30CD])
  ; ([0x331C], [0x30B1; 0x30FC; 0x30B9])
  ; ([0x331D], [0x30B3; 0x30EB; 0x30CA])
  ; ([0x331E], [0x30B3; 0x30FC; 0x30DD])
  ; ([0x331F], [0x30B5; 0x30A4; 0x30AF; 0x30EB])
  ; ([0x3320], [0x30B5; 0x30F3; 0x30C1; 0x30FC; 0x30E0])
  ; ([0x3321], [0x30B7; 0x30EA; 0x30F3; 0x30B0])
  ; ([0x3322], [0x30BB; 0x30F3; 0x30C1])
  ; ([0x3323], [0x30BB; 0x30F3; 0x30C8])
  ; ([0x3324], [0x30C0; 0x30FC; 0x30B9])
  ; ([0x3325], [0x30C7; 0x30B7])
  ; ([0x3326], [0x30C9; 0x30EB])
  ; ([0x3327], [0x30C8; 0x30F3])
  ; ([0x3328], [0x30CA; 0x30CE])
  ; ([0x3329], [0x30CE; 0x30C3; 0x30C8])
  ; ([0x332A], [0x30CF; 0x30A4; 0x30C4])
  ; ([0x332B], [0x30D1; 0x30FC; 0x30BB; 0x30F3; 0x30C8])
  ; ([0x332C], [0x30D1; 0x30FC; 0x30C4])
  ; ([0x332D], [0x30D0; 0x30FC; 0x30EC; 0x30EB])
  ; ([0x332E], [0x30D4; 0x30A2; 0x30B9; 0x30C8; 0x30EB])
  ; ([0x332F], [0x30D4; 0x30AF; 0x30EB])
  ; ([0x3330], [0x30D4; 0x30B3])
  ; ([0x3331], [0x30D3; 0x30EB])
  ; ([0x3332], [0x30D5; 0x30A1; 0x30E9; 0x30C3; 0x30C9])
  ; ([0x3333], [0x30D5; 0x30A3; 0x30FC; 0x30C8])
  ; ([0x3334], [0x30D6; 0x30C3; 0x30B7; 0x30A7; 0x30EB])
  ; ([0x3335], [0x30D5; 0x30E9; 0x30F3])
  ; ([0x3336], [0x30D8; 0x30AF; 0x30BF; 0x30FC; 0x30EB])
  ; ([0x3337], [0x30DA; 0x30BD])
  ; ([0x3338], [0x30DA; 0x30CB; 0x30D2])
  ; ([0x3339], [0x30D8; 0x30EB; 0x30C4])
  ; ([0x333A], [0x30DA; 0x30F3; 0x30B9])
  ; ([0x333B], [0x30DA; 0x30FC; 0x30B8])
  ; ([0x333C], [0x30D9; 0x30FC; 0x30BF])
  ; ([0x333D], [0x30DD; 0x30A4; 0x30F3; 0x30C8])
  ; ([0x333E], [0x30DC; 0x30EB; 0x30C8])
  ; ([0x333F], [0x30DB; 0x30F3])
  ; ([0x3340], [0x30DD; 0x30F3; 0x30C9])
  ; ([0x3341], [0x30DB; 0x30FC; 0x30EB])
  ; ([0x3342], [0x30DB; 0x30FC; 0x30F3])
  ; ([0x3343], [0x30DE; 0x30A4; 0x30AF; 0x30ED])
  ; ([0x3344], [0x30DE; 0x30A4; 0x30EB])
  ; ([0x3345], [0x30DE; 0x30C3; 0x30CF])
  ; ([0x3346], [0x30DE; 0x30EB; 0x30AF])
  ; ([0x3347], [0x30DE; 0x30F3; 0x30B7; 0x30E7; 0x30F3])
  ; ([0x3348], [0x30DF; 0x30AF; 0x30ED; 0x30F3])
  ; ([0x3349], [0x30DF; 0x30EA])
  ; ([0x334A], [0x30DF; 0x30EA; 0x30D0; 0x30FC; 0x30EB])
  ; ([0x334B], [0x30E1; 0x30AC])
  ; ([0x334C], [0x30E1; 0x30AC; 0x30C8; 0x30F3])
  ; ([0x334D], [0x30E1; 0x30FC; 0x30C8; 0x30EB])
  ; ([0x334E], [0x30E4; 0x30FC; 0x30C9])
  ; ([0x334F], [0x30E4; 0x30FC; 0x30EB])
  ; ([0x3350], [0x30E6; 0x30A2; 0x30F3])
  ; ([0x3351], [0x30EA; 0x30C3; 0x30C8; 0x30EB])
  ; ([0x3352], [0x30EA; 0x30E9])
  ; ([0x3353], [0x30EB; 0x30D4; 0x30FC])
  ; ([0x3354], [0x30EB; 0x30FC; 0x30D6; 0x30EB])
  ; ([0x3355], [0x30EC; 0x30E0])
  ; ([0x3356], [0x30EC; 0x30F3; 0x30C8; 0x30B2; 0x30F3])
  ; ([0x3357], [0x30EF; 0x30C3; 0x30C8])
  ; ([0x3358], [0x30; 0x70B9])
  ; ([0x3359], [0x31; 0x70B9])
  ; ([0x335A], [0x32; 0x70B9])
  ; ([0x335B], [0x33; 0x70B9])
  ; ([0x335C], [0x34; 0x70B9])
  ; ([0x335D], [0x35; 0x70B9])
  ; ([0x335E], [0x36; 0x70B9])
  ; ([0x335F], [0x37; 0x70B9])
  ; ([0x3360], [0x38; 0x70B9])
  ; ([0x3361], [0x39; 0x70B9])
  ; ([0x3362], [0x31; 0x30; 0x70B9])
  ; ([0x3363], [0x31; 0x31; 0x70B9])
  ; ([0x3364], [0x31; 0x32; 0x70B9])
  ; ([0x3365], [0x31; 0x33; 0x70B9])
  ; ([0x3366], [0x31; 0x34; 0x70B9])
  ; ([0x3367], [0x31; 0x35; 0x70B9])
  ; ([0x3368], [0x31; 0x36; 0x70B9])
  ; ([0x3369], [0x31; 0x37; 0x70B9])
  ; ([0x336A], [0x31; 0x38; 0x70B9])
  ; ([0x336B], [0x31; 0x39; 0x70B9])
  ; ([0x336C], [0x32; 0x30; 0x70B9])
  ; ([0x336D], [0x32; 0x31; 0x70B9])
  ; ([0x336E], [0x32; 0x32; 0x70B9])
  ; ([0x336F], [0x32; 0x33; 0x70B9])
  ; ([0x3370], [0x32; 0x34; 0x70B9])
  ; ([0x3371], [0x68; 0x50; 0x61])
  ; ([0x3372], [0x64; 0x61])
  ; ([0x3373], [0x41; 0x55])
  ; ([0x3374], [0x62; 0x61; 0x72])
  ; ([0x3375], [0x6F; 0x56])
  ; ([0x3376], [0x70; 0x63])
  ; ([0x3377], [0x64; 0x6D])
  ; ([0x3378], [0x64; 0x6D; 0x32])
  ; ([0x3379], [0x64; 0x6D; 0x33])
  ; ([0x337A], [0x49; 0x55])
  ; ([0x337B], [0x5E73; 0x6210])
  ; ([0x337C], [0x662D; 0x548C])
  ; ([0x337D], [0x5927; 0x6B63])
  ; ([0x337E], [0x660E; 0x6CBB])
  ; ([0x337F], [0x682A; 0x5F0F; 0x4F1A; 0x793E])
  ; ([0x3380], [0x70; 0x41])
  ; ([0x3381], [0x6E; 0x41])
  ; ([0x3382], [0xB5; 0x41])
  ; ([0x3383], [0x6D; 0x41])
  ; ([0x3384], [0x6B; 0x41])
  ; ([0x3385], [0x4B; 0x42])
  ; ([0x3386], [0x4D; 0x42])
  ; ([0x3387], [0x47; 0x42])
  ; ([0x3388], [0x63; 0x61; 0x6C])
  ; ([0x3389], [0x6B; 0x63; 0x61; 0x6C])
  ; ([0x338A], [0x70; 0x46])
  ; ([0x338B], [0x6E; 0x46])
  ; ([0x338C], [0xB5; 0x46])
  ; ([0x338D], [0xB5; 0x67])
  ; ([0x338E], [0x6D; 0x67])
  ; ([0x338F], [0x6B; 0x67])
  ; ([0x3390], [0x48; 0x7A])
  ; ([0x3391], [0x6B; 0x48; 0x7A])
  ; ([0x3392], [0x4D; 0x48; 0x7A])
  ; ([0x3393], [0x47; 0x48; 0x7A])
  ; ([0x3394], [0x54; 0x48; 0x7A])
  ; ([0x3395], [0xB5; 0x6C])
  ; ([0x3396], [0x6D; 0x6C])
  ; ([0x3397], [0x64; 0x6C])
  ; ([0x3398], [0x6B; 0x6C])
  ; ([0x3399], [0x66; 0x6D])
  ; ([0x339A], [0x6E; 0x6D])
  ; ([0x339B], [0xB5; 0x6D])
  ; ([0x339C], [0x6D; 0x6D])
  ; ([0x339D], [0x63; 0x6D])
  ; ([0x339E], [0x6B; 0x6D])
  ; ([0x339F], [0x6D; 0x6D])
  ; ([0x33A0], [0x63; 0x6D; 0x32])
  ; ([0x33A1], [0x6D; 0x32])
  ; ([0x33A2], [0x6B; 0x6D; 0x32])
  ; ([0x33A3], [0x63; 0x6D; 0x33])
  ; ([0x33A3], [0x6D; 0x6D; 0x33])
  ; ([0x33A5], [0x6D; 0x33])
  ; ([0x33A6], [0x6B; 0x6D; 0x33])
  ; ([0x33A7], [0x6D; 0x2F; 0x73])
  ; ([0x33A8], [0x6D; 0x2F; 0x73; 0x32])
  ; ([0x33A9], [0x50; 0x61])
  ; ([0x33AA], [0x6B; 0x50; 0x61])
  ; ([0x33AB], [0x4D; 0x50; 0x61])
  ; ([0x33AC], [0x47; 0x50; 0x61])
  ; ([0x33AD], [0x72; 0x61; 0x64])
  ; ([0x33AE], [0x72; 0x61; 0x64; 0x2F; 0x73])
  ; ([0x33AF], [0x72; 0x61; 0x64; 0x2F; 0x73; 0x32])
  ; ([0x33B0], [0x70; 0x73])
  ; ([0x33B1], [0x6E; 0x73])
  ; ([0x33B2], [0xB5; 0x73])
  ; ([0x33B3], [0x6D; 0x73])
  ; ([0x33B4], [0x70; 0x56])
  ; ([0x33B5], [0x6E; 0x56])
  ; ([0x33B6], [0xB5; 0x56])
  ; ([0x33B7], [0x6D; 0x56])
  ; ([0x33B8], [0x6B; 0x56])
  ; ([0x33B9], [0x4D; 0x56])
  ; ([0x33BA], [0x70; 0x57])
  ; ([0x33BB], [0x6E; 0x57])
  ; ([0x33BC], [0xB5; 0x57])
  ; ([0x33BD], [0x6D; 0x57])
  ; ([0x33BE], [0x6B; 0x57])
  ; ([0x33BF], [0x4D; 0x57])
  ; ([0x33C0], [0x6B; 0x3A9])
  ; ([0x33C1], [0x4D; 0x3A9])
  ; ([0x33C2], [0x61; 0x2E; 0x6D; 0x2E])
  ; ([0x33C3], [0x42; 0x71])
  ; ([0x33C4], [0x63; 0x63])
  ; ([0x33C5], [0x63; 0x64])
  ; ([0x33C6], [0x43; 0x2F; 0x6B; 0x67])
  ; ([0x33C7], [0x43; 0x6F; 0x2E])
  ; ([0x33C8], [0x64; 0x42])
  ; ([0x33C9], [0x47; 0x79])
  ; ([0x33CA], [0x68; 0x61])
  ; ([0x33CB], [0x48; 0x50])
  ; ([0x33CC], [0x69; 0x6E])
  ; ([0x33CD], [0x4B; 0x2E])
  ; ([0x33CE], [0x4B; 0x4D])
  ; ([0x33CF], [0x6B; 0x74])
  ; ([0x33D0], [0x6C; 0x6D])
  ; ([0x33D1], [0x6C; 0x6E])
  ; ([0x33D2], [0x6C; 0x6F; 0x67])
  ; ([0x33D3], [0x6C; 0x78])
  ; ([0x33D4], [0x6D; 0x62])
  ; ([0x33D5], [0x6D; 0x69; 0x6C])
  ; ([0x33D6], [0x6D; 0x6F; 0x6C])
  ; ([0x33D7], [0x70; 0x48])
  ; ([0x33D8], [0x70; 0x2E; 0x6D; 0x2E])
  ; ([0x33D9], [0x70; 0x70; 0x6D])
  ; ([0x33DA], [0x50; 0x52])
  ; ([0x33DB], [0x73; 0x72])
  ; ([0x33DC], [0x53; 0x76])
  ; ([0x33DD], [0x57; 0x62])
  ; ([0x33DE], [0x56; 0x2F; 0x6D])
  ; ([0x33DF], [0x41; 0x2F; 0x6D])
  ; ([0x33E0], [0x31; 0x65E5])
  ; ([0x33E1], [0x32; 0x65E5])
  ; ([0x33E2], [0x33; 0x65E5])
  ; ([0x33E3], [0x34; 0x65E5])
  ; ([0x33E4], [0x35; 0x65E5])
  ; ([0x33E5], [0x36; 0x65E5])
  ; ([0x33E6], [0x37; 0x65E5])
  ; ([0x33E7], [0x38; 0x65E5])
  ; ([0x33E8], [0x39; 0x65E5])
  ; ([0x33E9], [0x31; 0x30; 0x65E5])
  ; ([0x33EA], [0x31; 0x31; 0x65E5])
  ; ([0x33EB], [0x31; 0x32; 0x65E5])
  ; ([0x33EC], [0x31; 0x33; 0x65E5])
  ; ([0x33ED], [0x31; 0x34; 0x65E5])
  ; ([0x33EE], [0x31; 0x35; 0x65E5])
  ; ([0x33EF], [0x31; 0x36; 0x65E5])
  ; ([0x33F0], [0x31; 0x37; 0x65E5])
  ; ([0x33F1], [0x31; 0x38; 0x65E5])
  ; ([0x33F2], [0x31; 0x39; 0x65E5])
  ; ([0x33F3], [0x32; 0x30; 0x65E5])
  ; ([0x33F4], [0x32; 0x31; 0x65E5])
  ; ([0x33F5], [0x32; 0x32; 0x65E5])
  ; ([0x33F6], [0x32; 0x33; 0x65E5])
  ; ([0x33F7], [0x32; 0x34; 0x65E5])
  ; ([0x33F8], [0x32; 0x35; 0x65E5])
  ; ([0x33F9], [0x32; 0x36; 0x65E5])
  ; ([0x33FA], [0x32; 0x37; 0x65E5])
  ; ([0x33FB], [0x32; 0x38; 0x65E5])
  ; ([0x33FC], [0x32; 0x39; 0x65E5])
  ; ([0x33FD], [0x33; 0x30; 0x65E5])
  ; ([0x33FE], [0x33; 0x31; 0x65E5])
  ; ([0x33FF], [0x67; 0x61; 0x6C])
  ; ([0xFE63], [0x30FC])
  ; ([0xFF01], [0x21])
  ; ([0xFF03], [0x23])
  ; ([0xFF04], [0x24])
  ; ([0xFF05], [0x25])
  ; ([0xFF06], [0x26])
  ; ([0xFF08], [0x28])
  ; ([0xFF09], [0x29])
  ; ([0xFF0A], [0x2A])
  ; ([0xFF0B], [0x2B])
  ; ([0xFF0C], [0x2C])
  ; ([0xFF0D], [0x30FC])
  ; ([0xFF0E], [0x2E])
  ; ([0xFF0F], [0x2F])
  ; ([0xFF10], [0x30])
  ; ([0xFF11], [0x31])
  ; ([0xFF12], [0x32])
  ; ([0xFF13], [0x33])
  ; ([0xFF14], [0x34])
  ; ([0xFF15], [0x35])
  ; ([0xFF16], [0x36])
  ; ([0xFF17], [0x37])
  ; ([0xFF18], [0x38])
  ; ([0xFF19], [0x39])
  ; ([0xFF1A], [0x3A])
  ; ([0xFF1B], [0x3B])
  ; ([0xFF1C], [0x3C])
  ; ([0xFF1D], [0x3D])
  ; ([0xFF1E], [0x3E])
  ; ([0xFF1F], [0x3F])
  ; ([0xFF20], [0x40])
  ; ([0xFF21], [0x41])
  ; ([0xFF22], [0x42])
  ; ([0xFF23], [0x43])
  ; ([0xFF24], [0x44])
  ; ([0xFF25], [0x45])
  ; ([0xFF26], [0x46])
  ; ([0xFF27], [0x47])
  ; ([0xFF28], [0x48])
  ; ([0xFF29], [0x49])
  ; ([0xFF2A], [0x4A])
  ; ([0xFF2B], [0x4B])
  ; ([0xFF2C], [0x4C])
  ; ([0xFF2D], [0x4D])
  ; ([0xFF2E], [0x4E])
  ; ([0xFF2F], [0x4F])
  ; ([0xFF30], [0x50])
  ; ([0xFF31], [0x51])
  ; ([0xFF32], [0x52])
  ; ([0xFF33], [0x53])
  ; ([0xFF34], [0x54])
  ; ([0xFF35], [0x55])
  ; ([0xFF36], [0x56])
  ; ([0xFF37], [0x57])
  ; ([0xFF38], [0x58])
  ; ([0xFF39], [0x59])
  ; ([0xFF3A], [0x5A])
  ; ([0xFF3B], [0x5B])
  ; ([0xFF3C], [0x5C])
  ; ([0xFF3D], [0x5D])
  ; ([0xFF3E], [0x5E])
  ; ([0xFF3F], [0x5F])
  ; ([0xFF40], [0x60])
  ; ([0xFF41], [0x61])
  ; ([0xFF42], [0x62])
  ; ([0xFF43], [0x63])
  ; ([0xFF44], [0x64])
  ; ([0xFF45], [0x65])
  ; ([0xFF46], [0x66])
  ; ([0xFF47], [0x67])
  ; ([0xFF48], [0x68])
  ; ([0xFF49], [0x69])
  ; ([0xFF4A], [0x6A])
  ; ([0xFF4B], [0x6B])
  ; ([0xFF4C], [0x6C])
  ; ([0xFF4D], [0x6D])
  ; ([0xFF4E], [0x6E])
  ; ([0xFF4F], [0x6F])
  ; ([0xFF50], [0x70])
  ; ([0xFF51], [0x71])
  ; ([0xFF52], [0x72])
  ; ([0xFF53], [0x73])
  ; ([0xFF54], [0x74])
  ; ([0xFF55], [0x75])
  ; ([0xFF56], [0x76])
  ; ([0xFF57], [0x77])
  ; ([0xFF58], [0x78])
  ; ([0xFF59], [0x79])
  ; ([0xFF5A], [0x7A])
  ; ([0xFF5B], [0x7B])
  ; ([0xFF5C], [0x7C])
  ; ([0xFF5D], [0x7D])
  ; ([0xFF5E], [0x7E])
  ; ([0xFF61], [0x3002])
  ; ([0xFF62], [0x300C])
  ; ([0xFF63], [0x300D])
  ; ([0xFF64], [0x3001])
  ; ([0xFF65], [0x30FB])
  ; ([0xFF66], [0x30F2])
  ; ([0xFF67], [0x30A1])
  ; ([0xFF68], [0x30A3])
  ; ([0xFF69], [0x30A5])
  ; ([0xFF6A], [0x30A7])
  ; ([0xFF6B], [0x30A9])
  ; ([0xFF6C], [0x30E3])
  ; ([0xFF6D], [0x30E5])
  ; ([0xFF6E], [0x30E7])
  ; ([0xFF6F], [0x30C3])
  ; ([0xFF70], [0x30FC])
  ; ([0xFF71], [0x30A2])
  ; ([0xFF72], [0x30A4])
  ; ([0xFF73], [0x30A6])
  ; ([0xFF74], [0x30A8])
  ; ([0xFF75], [0x30AA])
  ; ([0xFF76], [0x30AB])
  ; ([0xFF77], [0x30AD])
  ; ([0xFF78], [0x30AF])
  ; ([0xFF79], [0x30B1])
  ; ([0xFF7A], [0x30B3])
  ; ([0xFF7B], [0x30B5])
  ; ([0xFF7C], [0x30B7])
  ; ([0xFF7D], [0x30B9])
  ; ([0xFF7E], [0x30BB])
  ; ([0xFF7F], [0x30BD])
  ; ([0xFF80], [0x30BF])
  ; ([0xFF81], [0x30C1])
  ; ([0xFF82], [0x30C4])
  ; ([0xFF83], [0x30C6])
  ; ([0xFF84], [0x30C8])
  ; ([0xFF85], [0x30CA])
  ; ([0xFF86], [0x30CB])
  ; ([0xFF87], [0x30CC])
  ; ([0xFF88], [0x30CD])
  ; ([0xFF89], [0x30CE])
  ; ([0xFF8A], [0x30CF])
  ; ([0xFF8B], [0x30D2])
  ; ([0xFF8C], [0x30D5])
  ; ([0xFF8D], [0x30D8])
  ; ([0xFF8E], [0x30DB])
  ; ([0xFF8F], [0x30DE])
  ; ([0xFF90], [0x30DF])
  ; ([0xFF91], [0x30E0])
  ; ([0xFF92], [0x30E1])
  ; ([0xFF93], [0x30E2])
  ; ([0xFF94], [0x30E4])
  ; ([0xFF95], [0x30E6])
  ; ([0xFF96], [0x30E8])
  ; ([0xFF97], [0x30E9])
  ; ([0xFF98], [0x30EA])
  ; ([0xFF99], [0x30EB])
  ; ([0xFF9A], [0x30EC])
  ; ([0xFF9B], [0x30ED])
  ; ([0xFF9C], [0x30EF])
  ; ([0xFF9D], [0x30F3]) ].
Definition example_yaml : yval :=
  YMap [(YStr (lit "items"), YSeq (map (fun p => YMap [(YStr (lit "from"), YStr (fst p)); (YStr (lit "to"), YStr (snd p))]) example_yaml_pairs))].
