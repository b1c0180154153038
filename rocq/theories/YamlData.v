(** Generated by tools/mkyaml.py from /repo; do not edit. *)
From Verif Require Import Base.
Local Open Scope N_scope.

(** README.md, the sample for items *)
Definition readme_items : str :=
  [105; 116; 101; 109; 115; 58; 10; 32; 32; 45; 32; 102; 114; 111; 109; 58; 32; 34; 97; 34; 10; 32; 32; 32; 32; 116; 111; 58; 32; 34;
   65; 34; 10].

(** README.md, the sample for modifiers *)
Definition readme_modifiers : str :=
  [109; 111; 100; 105; 102; 105; 101; 114; 115; 58; 10; 32; 32; 99; 104; 97; 114; 97; 99; 116; 101; 114; 95; 99; 111; 110; 118; 101; 114; 116;
   101; 114; 58; 10; 32; 32; 32; 32; 97; 58; 32; 65; 10; 32; 32; 32; 32; 98; 58; 32; 66; 10; 32; 32; 99; 104; 97; 114; 97; 99;
   116; 101; 114; 95; 101; 108; 105; 109; 105; 110; 97; 116; 111; 114; 58; 32; 91; 34; 126; 34; 44; 32; 8764; 44; 32; 8766; 44; 32; 12316; 44;
   32; 12336; 44; 32; 65374; 93; 10; 32; 32; 99; 111; 110; 115; 101; 99; 117; 116; 105; 118; 101; 95; 99; 104; 97; 114; 97; 99; 116; 101; 114;
   95; 114; 101; 100; 117; 99; 101; 114; 58; 32; 12540; 10; 32; 32; 100; 111; 116; 116; 101; 100; 95; 115; 112; 97; 99; 101; 95; 101; 108; 105;
   109; 105; 110; 97; 116; 111; 114; 58; 10; 32; 32; 108; 105; 103; 97; 116; 117; 114; 101; 95; 116; 114; 97; 110; 115; 108; 97; 116; 111; 114;
   58; 10; 32; 32; 32; 32; 12495; 12444; 58; 32; 12497; 10; 32; 32; 116; 114; 105; 109; 58; 10; 32; 32; 110; 101; 111; 108; 111; 103; 100; 110;
   58; 10].

(** /repo/tests/resources/test.yaml *)
Definition test_yaml : str :=
  [45; 45; 45; 10; 105; 116; 101; 109; 115; 58; 10; 32; 32; 65; 58; 32; 97; 10; 32; 32; 66; 58; 32; 98; 10; 32; 32; 67; 58; 10;
   32; 32; 32; 32; 45; 32; 99; 10; 32; 32; 32; 32; 45; 32; 115; 101; 97; 10; 32; 32; 32; 32; 45; 32; 115; 101; 101; 10; 109; 111;
   100; 105; 102; 105; 101; 114; 115; 58; 10; 32; 32; 99; 104; 97; 114; 97; 99; 116; 101; 114; 95; 99; 111; 110; 118; 101; 114; 116; 101; 114;
   58; 10; 32; 32; 32; 32; 68; 58; 32; 100; 10; 32; 32; 32; 32; 69; 58; 32; 101; 10; 32; 32; 99; 104; 97; 114; 97; 99; 116; 101;
   114; 95; 101; 108; 105; 109; 105; 110; 97; 116; 111; 114; 58; 10; 32; 32; 32; 32; 91; 34; 126; 34; 44; 32; 8764; 44; 32; 8766; 44; 32;
   12316; 44; 32; 12336; 44; 32; 65374; 93; 10; 32; 32; 99; 111; 110; 115; 101; 99; 117; 116; 105; 118; 101; 95; 99; 104; 97; 114; 97; 99; 116;
   101; 114; 95; 114; 101; 100; 117; 99; 101; 114; 58; 32; 12540; 10; 32; 32; 100; 111; 116; 116; 101; 100; 95; 115; 112; 97; 99; 101; 95; 101;
   108; 105; 109; 105; 110; 97; 116; 111; 114; 58; 10; 32; 32; 116; 114; 105; 109; 58; 10; 32; 32; 108; 105; 103; 97; 116; 117; 114; 101; 95;
   116; 114; 97; 110; 115; 108; 97; 116; 111; 114; 58; 10; 32; 32; 32; 32; 12495; 12444; 58; 32; 12497; 10; 32; 32; 110; 101; 111; 108; 111; 103;
   100; 110; 58; 10].

(** /repo/bindings/python3/tests/test.yaml *)
Definition python_test_yaml : str :=
  [45; 45; 45; 10; 105; 116; 101; 109; 115; 58; 10; 32; 32; 35; 32; 116; 111; 58; 32; 102; 114; 111; 109; 10; 32; 32; 65; 58; 32; 65313;
   10; 32; 32; 66; 58; 32; 65314; 10; 32; 32; 67; 58; 32; 65315; 10; 32; 32; 68; 58; 32; 65316; 10; 32; 32; 69; 58; 32; 65317; 10].

(** /repo/examples/file/table.yaml *)
Definition example_yaml_text : str :=
  [45; 45; 45; 10; 105; 116; 101; 109; 115; 58; 10; 32; 32; 45; 32; 102; 114; 111; 109; 58; 32; 34; 126; 34; 10; 32; 32; 32; 32; 116;
   111; 58; 32; 34; 126; 34; 10; 32; 32; 45; 32; 102; 114; 111; 109; 58; 32; 727; 10; 32; 32; 32; 32; 116; 111; 58; 32; 34; 45; 34;
   10; 32; 32; 45; 32; 102; 114; 111; 109; 58; 32; 1418; 10; 32; 32; 32; 32; 116; 111; 58; 32; 34; 45; 34; 10; 32; 32; 45; 32; 102;
   114; 111; 109; 58; 32; 8208; 10; 32; 32; 32; 32; 116; 111; 58; 32; 34; 45; 34; 10; 32; 32; 45; 32; 102; 114; 111; 109; 58; 32; 8209;
   10; 32; 32; 32; 32; 116; 111; 58; 32; 34; 45; 34; 10; 32; 32; 45; 32; 102; 114; 111; 109; 58; 32; 8210; 10; 32; 32; 32; 32; 116;
   111; 58; 32; 34; 45; 34; 10; 32; 32; 45; 32; 102; 114; 111; 109; 58; 32; 8211; 10; 32; 32; 32; 32; 116; 111; 58; 32; 34; 45; 34;
   10; 32; 32; 45; 32; 102; 114; 111; 109; 58; 32; 8212; 10; 32; 32; 32; 32; 116; 111; 58; 32; 12540; 10; 32; 32; 45; 32; 102; 114; 111;
   109; 58; 32; 8213; 10; 32; 32; 32; 32; 116; 111; 58; 32; 12540; 10; 32; 32; 45; 32; 102; 114; 111; 109; 58; 32; 8217; 10; 32; 32; 32;
   32; 116; 111; 58; 32; 34; 39; 34; 10; 32; 32; 45; 32; 102; 114; 111; 109; 58; 32; 8221; 10; 32; 32; 32; 32; 116; 111; 58; 32; 34;
   92; 34; 34; 10; 32; 32; 45; 32; 102; 114; 111; 109; 58; 32; 8259; 10; 32; 32; 32; 32; 116; 111; 58; 32; 34; 45; 34; 10; 32; 32;
   45; 32; 102; 114; 111; 109; 58; 32; 8315; 10; 32; 32; 32; 32; 116; 111; 58; 32; 34; 45; 34; 10; 32; 32; 45; 32; 102; 114; 111; 109;
   58; 32; 8331; 10; 32; 32; 32; 32; 116; 111; 58; 32; 34; 45; 34; 10; 32; 32; 45; 32; 102; 114; 111; 109; 58; 32; 8722; 10; 32; 32;
   32; 32; 116; 111; 58; 32; 34; 45; 34; 10; 32; 32; 45; 32; 102; 114; 111; 109; 58; 32; 8764; 10; 32; 32; 32; 32; 116; 111; 58; 32;
   34; 126; 34; 10; 32; 32; 45; 32; 102; 114; 111; 109; 58; 32; 8766; 10; 32; 32; 32; 32; 116; 111; 58; 32; 34; 126; 34; 10; 32; 32;
   45; 32; 102; 114; 111; 109; 58; 32; 9472; 10; 32; 32; 32; 32; 116; 111; 58; 32; 12540; 10; 32; 32; 45; 32; 102; 114; 111; 109; 58; 32;
   9473; 10; 32; 32; 32; 32; 116; 111; 58; 32; 12540; 10; 32; 32; 45; 32; 102; 114; 111; 109; 58; 32; 12316; 10; 32; 32; 32; 32; 116; 111;
   58; 32; 34; 126; 34; 10; 32; 32; 45; 32; 102; 114; 111; 109; 58; 32; 12336; 10; 32; 32; 32; 32; 116; 111; 58; 32; 34; 126; 34; 10;
   32; 32; 45; 32; 102; 114; 111; 109; 58; 32; 13056; 10; 32; 32; 32; 32; 116; 111; 58; 32; 12450; 12497; 12540; 12488; 10; 32; 32; 45; 32; 102;
   114; 111; 109; 58; 32; 13057; 10; 32; 32; 32; 32; 116; 111; 58; 32; 12450; 12523; 12501; 12449; 10; 32; 32; 45; 32; 102; 114; 111; 109; 58; 32;
   13058; 10; 32; 32; 32; 32; 116; 111; 58; 32; 12450; 12531; 12506; 12450; 10; 32; 32; 45; 32; 102; 114; 111; 109; 58; 32; 13059; 10; 32; 32; 32;
   32; 116; 111; 58; 32; 12450; 12540; 12523; 10; 32; 32; 45; 32; 102; 114; 111; 109; 58; 32; 13060; 10; 32; 32; 32; 32; 116; 111; 58; 32; 12452;
   12491; 12531; 12464; 10; 32; 32; 45; 32; 102; 114; 111; 109; 58; 32; 13061; 10; 32; 32; 32; 32; 116; 111; 58; 32; 12452; 12531; 12481; 10; 32; 32;
   45; 32; 102; 114; 111; 109; 58; 32; 13062; 10; 32; 32; 32; 32; 116; 111; 58; 32; 12454; 12457; 12531; 10; 32; 32; 45; 32; 102; 114; 111; 109;
   58; 32; 13063; 10; 32; 32; 32; 32; 116; 111; 58; 32; 12456; 12473; 12463; 12540; 12489; 10; 32; 32; 45; 32; 102; 114; 111; 109; 58; 32; 13064; 10;
   32; 32; 32; 32; 116; 111; 58; 32; 12456; 12540; 12459; 12540; 10; 32; 32; 45; 32; 102; 114; 111; 109; 58; 32; 13065; 10; 32; 32; 32; 32; 116;
   111; 58; 32; 12458; 12531; 12473; 10; 32; 32; 45; 32; 102; 114; 111; 109; 58; 32; 13066; 10; 32; 32; 32; 32; 116; 111; 58; 32; 12458; 12540; 12512;
   10; 32; 32; 45; 32; 102; 114; 111; 109; 58; 32; 13067; 10; 32; 32; 32; 32; 116; 111; 58; 32; 12459; 12452; 12522; 10; 32; 32; 45; 32; 102;
   114; 111; 109; 58; 32; 13068; 10; 32; 32; 32; 32; 116; 111; 58; 32; 12459; 12521; 12483; 12488; 10; 32; 32; 45; 32; 102; 114; 111; 109; 58; 32;
   13069; 10; 32; 32; 32; 32; 116; 111; 58; 32; 12459; 12525; 12522; 12540; 10; 32; 32; 45; 32; 102; 114; 111; 109; 58; 32; 13070; 10; 32; 32; 32;
   32; 116; 111; 58; 32; 12460; 12525; 12531; 10; 32; 32; 45; 32; 102; 114; 111; 109; 58; 32; 13071; 10; 32; 32; 32; 32; 116; 111; 58; 32; 12460;
   12531; 12510; 10; 32; 32; 45; 32; 102; 114; 111; 109; 58; 32; 13072; 10; 32; 32; 32; 32; 116; 111; 58; 32; 12462; 12460; 10; 32; 32; 45; 32;
   102; 114; 111; 109; 58; 32; 13073; 10; 32; 32; 32; 32; 116; 111; 58; 32; 12462; 12491; 12540; 10; 32; 32; 45; 32; 102; 114; 111; 109; 58; 32;
   13074; 10; 32; 32; 32; 32; 116; 111; 58; 32; 12461; 12517; 12522; 12540; 10; 32; 32; 45; 32; 102; 114; 111; 109; 58; 32; 13075; 10; 32; 32; 32;
   32; 116; 111; 58; 32; 12462; 12523; 12480; 12540; 10; 32; 32; 45; 32; 102; 114; 111; 109; 58; 32; 13076; 10; 32; 32; 32; 32; 116; 111; 58; 32;
   12461; 12525; 10; 32; 32; 45; 32; 102; 114; 111; 109; 58; 32; 13077; 10; 32; 32; 32; 32; 116; 111; 58; 32; 12461; 12525; 12464; 12521; 12512; 10; 32;
   32; 45; 32; 102; 114; 111; 109; 58; 32; 13078; 10; 32; 32; 32; 32; 116; 111; 58; 32; 12461; 12525; 12513; 12540; 12488; 12523; 10; 32; 32; 45; 32;
   102; 114; 111; 109; 58; 32; 13079; 10; 32; 32; 32; 32; 116; 111; 58; 32; 12461; 12525; 12527; 12483; 12488; 10; 32; 32; 45; 32; 102; 114; 111; 109;
   58; 32; 13080; 10; 32; 32; 32; 32; 116; 111; 58; 32; 12464; 12521; 12512; 10; 32; 32; 45; 32; 102; 114; 111; 109; 58; 32; 13081; 10; 32; 32;
   32; 32; 116; 111; 58; 32; 12464; 12521; 12512; 12488; 12531; 10; 32; 32; 45; 32; 102; 114; 111; 109; 58; 32; 13082; 10; 32; 32; 32; 32; 116; 111;
   58; 32; 12463; 12523; 12476; 12452; 12525; 10; 32; 32; 45; 32; 102; 114; 111; 109; 58; 32; 13083; 10; 32; 32; 32; 32; 116; 111; 58; 32; 12463; 12525;
   12540; 12493; 10; 32; 32; 45; 32; 102; 114; 111; 109; 58; 32; 13084; 10; 32; 32; 32; 32; 116; 111; 58; 32; 12465; 12540; 12473; 10; 32; 32; 45;
   32; 102; 114; 111; 109; 58; 32; 13085; 10; 32; 32; 32; 32; 116; 111; 58; 32; 12467; 12523; 12490; 10; 32; 32; 45; 32; 102; 114; 111; 109; 58;
   32; 13086; 10; 32; 32; 32; 32; 116; 111; 58; 32; 12467; 12540; 12509; 10; 32; 32; 45; 32; 102; 114; 111; 109; 58; 32; 13087; 10; 32; 32; 32;
   32; 116; 111; 58; 32; 12469; 12452; 12463; 12523; 10; 32; 32; 45; 32; 102; 114; 111; 109; 58; 32; 13088; 10; 32; 32; 32; 32; 116; 111; 58; 32;
   12469; 12531; 12481; 12540; 12512; 10; 32; 32; 45; 32; 102; 114; 111; 109; 58; 32; 13089; 10; 32; 32; 32; 32; 116; 111; 58; 32; 12471; 12522; 12531; 12464;
   10; 32; 32; 45; 32; 102; 114; 111; 109; 58; 32; 13090; 10; 32; 32; 32; 32; 116; 111; 58; 32; 12475; 12531; 12481; 10; 32; 32; 45; 32; 102;
   114; 111; 109; 58; 32; 13091; 10; 32; 32; 32; 32; 116; 111; 58; 32; 12475; 12531; 12488; 10; 32; 32; 45; 32; 102; 114; 111; 109; 58; 32; 13092;
   10; 32; 32; 32; 32; 116; 111; 58; 32; 12480; 12540; 12473; 10; 32; 32; 45; 32; 102; 114; 111; 109; 58; 32; 13093; 10; 32; 32; 32; 32; 116;
   111; 58; 32; 12487; 12471; 10; 32; 32; 45; 32; 102; 114; 111; 109; 58; 32; 13094; 10; 32; 32; 32; 32; 116; 111; 58; 32; 12489; 12523; 10; 32;
   32; 45; 32; 102; 114; 111; 109; 58; 32; 13095; 10; 32; 32; 32; 32; 116; 111; 58; 32; 12488; 12531; 10; 32; 32; 45; 32; 102; 114; 111; 109;
   58; 32; 13096; 10; 32; 32; 32; 32; 116; 111; 58; 32; 12490; 12494; 10; 32; 32; 45; 32; 102; 114; 111; 109; 58; 32; 13097; 10; 32; 32; 32;
   32; 116; 111; 58; 32; 12494; 12483; 12488; 10; 32; 32; 45; 32; 102; 114; 111; 109; 58; 32; 13098; 10; 32; 32; 32; 32; 116; 111; 58; 32; 12495;
   12452; 12484; 10; 32; 32; 45; 32; 102; 114; 111; 109; 58; 32; 13099; 10; 32; 32; 32; 32; 116; 111; 58; 32; 12497; 12540; 12475; 12531; 12488; 10; 32;
   32; 45; 32; 102; 114; 111; 109; 58; 32; 13100; 10; 32; 32; 32; 32; 116; 111; 58; 32; 12497; 12540; 12484; 10; 32; 32; 45; 32; 102; 114; 111;
   109; 58; 32; 13101; 10; 32; 32; 32; 32; 116; 111; 58; 32; 12496; 12540; 12524; 12523; 10; 32; 32; 45; 32; 102; 114; 111; 109; 58; 32; 13102; 10;
   32; 32; 32; 32; 116; 111; 58; 32; 12500; 12450; 12473; 12488; 12523; 10; 32; 32; 45; 32; 102; 114; 111; 109; 58; 32; 13103; 10; 32; 32; 32; 32;
   116; 111; 58; 32; 12500; 12463; 12523; 10; 32; 32; 45; 32; 102; 114; 111; 109; 58; 32; 13104; 10; 32; 32; 32; 32; 116; 111; 58; 32; 12500; 12467;
   10; 32; 32; 45; 32; 102; 114; 111; 109; 58; 32; 13105; 10; 32; 32; 32; 32; 116; 111; 58; 32; 12499; 12523; 10; 32; 32; 45; 32; 102; 114;
   111; 109; 58; 32; 13106; 10; 32; 32; 32; 32; 116; 111; 58; 32; 12501; 12449; 12521; 12483; 12489; 10; 32; 32; 45; 32; 102; 114; 111; 109; 58; 32;
   13107; 10; 32; 32; 32; 32; 116; 111; 58; 32; 12501; 12451; 12540; 12488; 10; 32; 32; 45; 32; 102; 114; 111; 109; 58; 32; 13108; 10; 32; 32; 32;
   32; 116; 111; 58; 32; 12502; 12483; 12471; 12455; 12523; 10; 32; 32; 45; 32; 102; 114; 111; 109; 58; 32; 13109; 10; 32; 32; 32; 32; 116; 111; 58;
   32; 12501; 12521; 12531; 10; 32; 32; 45; 32; 102; 114; 111; 109; 58; 32; 13110; 10; 32; 32; 32; 32; 116; 111; 58; 32; 12504; 12463; 12479; 12540; 12523;
   10; 32; 32; 45; 32; 102; 114; 111; 109; 58; 32; 13111; 10; 32; 32; 32; 32; 116; 111; 58; 32; 12506; 12477; 10; 32; 32; 45; 32; 102; 114;
   111; 109; 58; 32; 13112; 10; 32; 32; 32; 32; 116; 111; 58; 32; 12506; 12491; 12498; 10; 32; 32; 45; 32; 102; 114; 111; 109; 58; 32; 13113; 10;
   32; 32; 32; 32; 116; 111; 58; 32; 12504; 12523; 12484; 10; 32; 32; 45; 32; 102; 114; 111; 109; 58; 32; 13114; 10; 32; 32; 32; 32; 116; 111;
   58; 32; 12506; 12531; 12473; 10; 32; 32; 45; 32; 102; 114; 111; 109; 58; 32; 13115; 10; 32; 32; 32; 32; 116; 111; 58; 32; 12506; 12540; 12472; 10;
   32; 32; 45; 32; 102; 114; 111; 109; 58; 32; 13116; 10; 32; 32; 32; 32; 116; 111; 58; 32; 12505; 12540; 12479; 10; 32; 32; 45; 32; 102; 114;
   111; 109; 58; 32; 13117; 10; 32; 32; 32; 32; 116; 111; 58; 32; 12509; 12452; 12531; 12488; 10; 32; 32; 45; 32; 102; 114; 111; 109; 58; 32; 13118;
   10; 32; 32; 32; 32; 116; 111; 58; 32; 12508; 12523; 12488; 10; 32; 32; 45; 32; 102; 114; 111; 109; 58; 32; 13119; 10; 32; 32; 32; 32; 116;
   111; 58; 32; 12507; 12531; 10; 32; 32; 45; 32; 102; 114; 111; 109; 58; 32; 13120; 10; 32; 32; 32; 32; 116; 111; 58; 32; 12509; 12531; 12489; 10;
   32; 32; 45; 32; 102; 114; 111; 109; 58; 32; 13121; 10; 32; 32; 32; 32; 116; 111; 58; 32; 12507; 12540; 12523; 10; 32; 32; 45; 32; 102; 114;
   111; 109; 58; 32; 13122; 10; 32; 32; 32; 32; 116; 111; 58; 32; 12507; 12540; 12531; 10; 32; 32; 45; 32; 102; 114; 111; 109; 58; 32; 13123; 10;
   32; 32; 32; 32; 116; 111; 58; 32; 12510; 12452; 12463; 12525; 10; 32; 32; 45; 32; 102; 114; 111; 109; 58; 32; 13124; 10; 32; 32; 32; 32; 116;
   111; 58; 32; 12510; 12452; 12523; 10; 32; 32; 45; 32; 102; 114; 111; 109; 58; 32; 13125; 10; 32; 32; 32; 32; 116; 111; 58; 32; 12510; 12483; 12495;
   10; 32; 32; 45; 32; 102; 114; 111; 109; 58; 32; 13126; 10; 32; 32; 32; 32; 116; 111; 58; 32; 12510; 12523; 12463; 10; 32; 32; 45; 32; 102;
   114; 111; 109; 58; 32; 13127; 10; 32; 32; 32; 32; 116; 111; 58; 32; 12510; 12531; 12471; 12519; 12531; 10; 32; 32; 45; 32; 102; 114; 111; 109; 58;
   32; 13128; 10; 32; 32; 32; 32; 116; 111; 58; 32; 12511; 12463; 12525; 12531; 10; 32; 32; 45; 32; 102; 114; 111; 109; 58; 32; 13129; 10; 32; 32;
   32; 32; 116; 111; 58; 32; 12511; 12522; 10; 32; 32; 45; 32; 102; 114; 111; 109; 58; 32; 13130; 10; 32; 32; 32; 32; 116; 111; 58; 32; 12511;
   12522; 12496; 12540; 12523; 10; 32; 32; 45; 32; 102; 114; 111; 109; 58; 32; 13131; 10; 32; 32; 32; 32; 116; 111; 58; 32; 12513; 12460; 10; 32; 32;
   45; 32; 102; 114; 111; 109; 58; 32; 13132; 10; 32; 32; 32; 32; 116; 111; 58; 32; 12513; 12460; 12488; 12531; 10; 32; 32; 45; 32; 102; 114; 111;
   109; 58; 32; 13133; 10; 32; 32; 32; 32; 116; 111; 58; 32; 12513; 12540; 12488; 12523; 10; 32; 32; 45; 32; 102; 114; 111; 109; 58; 32; 13134; 10;
   32; 32; 32; 32; 116; 111; 58; 32; 12516; 12540; 12489; 10; 32; 32; 45; 32; 102; 114; 111; 109; 58; 32; 13135; 10; 32; 32; 32; 32; 116; 111;
   58; 32; 12516; 12540; 12523; 10; 32; 32; 45; 32; 102; 114; 111; 109; 58; 32; 13136; 10; 32; 32; 32; 32; 116; 111; 58; 32; 12518; 12450; 12531; 10;
   32; 32; 45; 32; 102; 114; 111; 109; 58; 32; 13137; 10; 32; 32; 32; 32; 116; 111; 58; 32; 12522; 12483; 12488; 12523; 10; 32; 32; 45; 32; 102;
   114; 111; 109; 58; 32; 13138; 10; 32; 32; 32; 32; 116; 111; 58; 32; 12522; 12521; 10; 32; 32; 45; 32; 102; 114; 111; 109; 58; 32; 13139; 10;
   32; 32; 32; 32; 116; 111; 58; 32; 12523; 12500; 12540; 10; 32; 32; 45; 32; 102; 114; 111; 109; 58; 32; 13140; 10; 32; 32; 32; 32; 116; 111;
   58; 32; 12523; 12540; 12502; 12523; 10; 32; 32; 45; 32; 102; 114; 111; 109; 58; 32; 13141; 10; 32; 32; 32; 32; 116; 111; 58; 32; 12524; 12512; 10;
   32; 32; 45; 32; 102; 114; 111; 109; 58; 32; 13142; 10; 32; 32; 32; 32; 116; 111; 58; 32; 12524; 12531; 12488; 12466; 12531; 10; 32; 32; 45; 32;
   102; 114; 111; 109; 58; 32; 13143; 10; 32; 32; 32; 32; 116; 111; 58; 32; 12527; 12483; 12488; 10; 32; 32; 45; 32; 102; 114; 111; 109; 58; 32;
   13144; 10; 32; 32; 32; 32; 116; 111; 58; 32; 48; 28857; 10; 32; 32; 45; 32; 102; 114; 111; 109; 58; 32; 13145; 10; 32; 32; 32; 32; 116;
   111; 58; 32; 49; 28857; 10; 32; 32; 45; 32; 102; 114; 111; 109; 58; 32; 13146; 10; 32; 32; 32; 32; 116; 111; 58; 32; 50; 28857; 10; 32;
   32; 45; 32; 102; 114; 111; 109; 58; 32; 13147; 10; 32; 32; 32; 32; 116; 111; 58; 32; 51; 28857; 10; 32; 32; 45; 32; 102; 114; 111; 109;
   58; 32; 13148; 10; 32; 32; 32; 32; 116; 111; 58; 32; 52; 28857; 10; 32; 32; 45; 32; 102; 114; 111; 109; 58; 32; 13149; 10; 32; 32; 32;
   32; 116; 111; 58; 32; 53; 28857; 10; 32; 32; 45; 32; 102; 114; 111; 109; 58; 32; 13150; 10; 32; 32; 32; 32; 116; 111; 58; 32; 54; 28857;
   10; 32; 32; 45; 32; 102; 114; 111; 109; 58; 32; 13151; 10; 32; 32; 32; 32; 116; 111; 58; 32; 55; 28857; 10; 32; 32; 45; 32; 102; 114;
   111; 109; 58; 32; 13152; 10; 32; 32; 32; 32; 116; 111; 58; 32; 56; 28857; 10; 32; 32; 45; 32; 102; 114; 111; 109; 58; 32; 13153; 10; 32;
   32; 32; 32; 116; 111; 58; 32; 57; 28857; 10; 32; 32; 45; 32; 102; 114; 111; 109; 58; 32; 13154; 10; 32; 32; 32; 32; 116; 111; 58; 32;
   49; 48; 28857; 10; 32; 32; 45; 32; 102; 114; 111; 109; 58; 32; 13155; 10; 32; 32; 32; 32; 116; 111; 58; 32; 49; 49; 28857; 10; 32; 32;
   45; 32; 102; 114; 111; 109; 58; 32; 13156; 10; 32; 32; 32; 32; 116; 111; 58; 32; 49; 50; 28857; 10; 32; 32; 45; 32; 102; 114; 111; 109;
   58; 32; 13157; 10; 32; 32; 32; 32; 116; 111; 58; 32; 49; 51; 28857; 10; 32; 32; 45; 32; 102; 114; 111; 109; 58; 32; 13158; 10; 32; 32;
   32; 32; 116; 111; 58; 32; 49; 52; 28857; 10; 32; 32; 45; 32; 102; 114; 111; 109; 58; 32; 13159; 10; 32; 32; 32; 32; 116; 111; 58; 32;
   49; 53; 28857; 10; 32; 32; 45; 32; 102; 114; 111; 109; 58; 32; 13160; 10; 32; 32; 32; 32; 116; 111; 58; 32; 49; 54; 28857; 10; 32; 32;
   45; 32; 102; 114; 111; 109; 58; 32; 13161; 10; 32; 32; 32; 32; 116; 111; 58; 32; 49; 55; 28857; 10; 32; 32; 45; 32; 102; 114; 111; 109;
   58; 32; 13162; 10; 32; 32; 32; 32; 116; 111; 58; 32; 49; 56; 28857; 10; 32; 32; 45; 32; 102; 114; 111; 109; 58; 32; 13163; 10; 32; 32;
   32; 32; 116; 111; 58; 32; 49; 57; 28857; 10; 32; 32; 45; 32; 102; 114; 111; 109; 58; 32; 13164; 10; 32; 32; 32; 32; 116; 111; 58; 32;
   50; 48; 28857; 10; 32; 32; 45; 32; 102; 114; 111; 109; 58; 32; 13165; 10; 32; 32; 32; 32; 116; 111; 58; 32; 50; 49; 28857; 10; 32; 32;
   45; 32; 102; 114; 111; 109; 58; 32; 13166; 10; 32; 32; 32; 32; 116; 111; 58; 32; 50; 50; 28857; 10; 32; 32; 45; 32; 102; 114; 111; 109;
   58; 32; 13167; 10; 32; 32; 32; 32; 116; 111; 58; 32; 50; 51; 28857; 10; 32; 32; 45; 32; 102; 114; 111; 109; 58; 32; 13168; 10; 32; 32;
   32; 32; 116; 111; 58; 32; 50; 52; 28857; 10; 32; 32; 45; 32; 102; 114; 111; 109; 58; 32; 13169; 10; 32; 32; 32; 32; 116; 111; 58; 32;
   104; 80; 97; 10; 32; 32; 45; 32; 102; 114; 111; 109; 58; 32; 13170; 10; 32; 32; 32; 32; 116; 111; 58; 32; 100; 97; 10; 32; 32; 45;
   32; 102; 114; 111; 109; 58; 32; 13171; 10; 32; 32; 32; 32; 116; 111; 58; 32; 65; 85; 10; 32; 32; 45; 32; 102; 114; 111; 109; 58; 32;
   13172; 10; 32; 32; 32; 32; 116; 111; 58; 32; 98; 97; 114; 10; 32; 32; 45; 32; 102; 114; 111; 109; 58; 32; 13173; 10; 32; 32; 32; 32;
   116; 111; 58; 32; 111; 86; 10; 32; 32; 45; 32; 102; 114; 111; 109; 58; 32; 13174; 10; 32; 32; 32; 32; 116; 111; 58; 32; 112; 99; 10;
   32; 32; 45; 32; 102; 114; 111; 109; 58; 32; 13175; 10; 32; 32; 32; 32; 116; 111; 58; 32; 100; 109; 10; 32; 32; 45; 32; 102; 114; 111;
   109; 58; 32; 13176; 10; 32; 32; 32; 32; 116; 111; 58; 32; 100; 109; 50; 10; 32; 32; 45; 32; 102; 114; 111; 109; 58; 32; 13177; 10; 32;
   32; 32; 32; 116; 111; 58; 32; 100; 109; 51; 10; 32; 32; 45; 32; 102; 114; 111; 109; 58; 32; 13178; 10; 32; 32; 32; 32; 116; 111; 58;
   32; 73; 85; 10; 32; 32; 45; 32; 102; 114; 111; 109; 58; 32; 13179; 10; 32; 32; 32; 32; 116; 111; 58; 32; 24179; 25104; 10; 32; 32; 45;
   32; 102; 114; 111; 109; 58; 32; 13180; 10; 32; 32; 32; 32; 116; 111; 58; 32; 26157; 21644; 10; 32; 32; 45; 32; 102; 114; 111; 109; 58; 32;
   13181; 10; 32; 32; 32; 32; 116; 111; 58; 32; 22823; 27491; 10; 32; 32; 45; 32; 102; 114; 111; 109; 58; 32; 13182; 10; 32; 32; 32; 32; 116;
   111; 58; 32; 26126; 27835; 10; 32; 32; 45; 32; 102; 114; 111; 109; 58; 32; 13183; 10; 32; 32; 32; 32; 116; 111; 58; 32; 26666; 24335; 20250; 31038;
   10; 32; 32; 45; 32; 102; 114; 111; 109; 58; 32; 13184; 10; 32; 32; 32; 32; 116; 111; 58; 32; 112; 65; 10; 32; 32; 45; 32; 102; 114;
   111; 109; 58; 32; 13185; 10; 32; 32; 32; 32; 116; 111; 58; 32; 110; 65; 10; 32; 32; 45; 32; 102; 114; 111; 109; 58; 32; 13186; 10; 32;
   32; 32; 32; 116; 111; 58; 32; 181; 65; 10; 32; 32; 45; 32; 102; 114; 111; 109; 58; 32; 13187; 10; 32; 32; 32; 32; 116; 111; 58; 32;
   109; 65; 10; 32; 32; 45; 32; 102; 114; 111; 109; 58; 32; 13188; 10; 32; 32; 32; 32; 116; 111; 58; 32; 107; 65; 10; 32; 32; 45; 32;
   102; 114; 111; 109; 58; 32; 13189; 10; 32; 32; 32; 32; 116; 111; 58; 32; 75; 66; 10; 32; 32; 45; 32; 102; 114; 111; 109; 58; 32; 13190;
   10; 32; 32; 32; 32; 116; 111; 58; 32; 77; 66; 10; 32; 32; 45; 32; 102; 114; 111; 109; 58; 32; 13191; 10; 32; 32; 32; 32; 116; 111;
   58; 32; 71; 66; 10; 32; 32; 45; 32; 102; 114; 111; 109; 58; 32; 13192; 10; 32; 32; 32; 32; 116; 111; 58; 32; 99; 97; 108; 10; 32;
   32; 45; 32; 102; 114; 111; 109; 58; 32; 13193; 10; 32; 32; 32; 32; 116; 111; 58; 32; 107; 99; 97; 108; 10; 32; 32; 45; 32; 102; 114;
   111; 109; 58; 32; 13194; 10; 32; 32; 32; 32; 116; 111; 58; 32; 112; 70; 10; 32; 32; 45; 32; 102; 114; 111; 109; 58; 32; 13195; 10; 32;
   32; 32; 32; 116; 111; 58; 32; 110; 70; 10; 32; 32; 45; 32; 102; 114; 111; 109; 58; 32; 13196; 10; 32; 32; 32; 32; 116; 111; 58; 32;
   181; 70; 10; 32; 32; 45; 32; 102; 114; 111; 109; 58; 32; 13197; 10; 32; 32; 32; 32; 116; 111; 58; 32; 181; 103; 10; 32; 32; 45; 32;
   102; 114; 111; 109; 58; 32; 13198; 10; 32; 32; 32; 32; 116; 111; 58; 32; 109; 103; 10; 32; 32; 45; 32; 102; 114; 111; 109; 58; 32; 13199;
   10; 32; 32; 32; 32; 116; 111; 58; 32; 107; 103; 10; 32; 32; 45; 32; 102; 114; 111; 109; 58; 32; 13200; 10; 32; 32; 32; 32; 116; 111;
   58; 32; 72; 122; 10; 32; 32; 45; 32; 102; 114; 111; 109; 58; 32; 13201; 10; 32; 32; 32; 32; 116; 111; 58; 32; 107; 72; 122; 10; 32;
   32; 45; 32; 102; 114; 111; 109; 58; 32; 13202; 10; 32; 32; 32; 32; 116; 111; 58; 32; 77; 72; 122; 10; 32; 32; 45; 32; 102; 114; 111;
   109; 58; 32; 13203; 10; 32; 32; 32; 32; 116; 111; 58; 32; 71; 72; 122; 10; 32; 32; 45; 32; 102; 114; 111; 109; 58; 32; 13204; 10; 32;
   32; 32; 32; 116; 111; 58; 32; 84; 72; 122; 10; 32; 32; 45; 32; 102; 114; 111; 109; 58; 32; 13205; 10; 32; 32; 32; 32; 116; 111; 58;
   32; 181; 108; 10; 32; 32; 45; 32; 102; 114; 111; 109; 58; 32; 13206; 10; 32; 32; 32; 32; 116; 111; 58; 32; 109; 108; 10; 32; 32; 45;
   32; 102; 114; 111; 109; 58; 32; 13207; 10; 32; 32; 32; 32; 116; 111; 58; 32; 100; 108; 10; 32; 32; 45; 32; 102; 114; 111; 109; 58; 32;
   13208; 10; 32; 32; 32; 32; 116; 111; 58; 32; 107; 108; 10; 32; 32; 45; 32; 102; 114; 111; 109; 58; 32; 13209; 10; 32; 32; 32; 32; 116;
   111; 58; 32; 102; 109; 10; 32; 32; 45; 32; 102; 114; 111; 109; 58; 32; 13210; 10; 32; 32; 32; 32; 116; 111; 58; 32; 110; 109; 10; 32;
   32; 45; 32; 102; 114; 111; 109; 58; 32; 13211; 10; 32; 32; 32; 32; 116; 111; 58; 32; 181; 109; 10; 32; 32; 45; 32; 102; 114; 111; 109;
   58; 32; 13212; 10; 32; 32; 32; 32; 116; 111; 58; 32; 109; 109; 10; 32; 32; 45; 32; 102; 114; 111; 109; 58; 32; 13213; 10; 32; 32; 32;
   32; 116; 111; 58; 32; 99; 109; 10; 32; 32; 45; 32; 102; 114; 111; 109; 58; 32; 13214; 10; 32; 32; 32; 32; 116; 111; 58; 32; 107; 109;
   10; 32; 32; 45; 32; 102; 114; 111; 109; 58; 32; 13215; 10; 32; 32; 32; 32; 116; 111; 58; 32; 109; 109; 10; 32; 32; 45; 32; 102; 114;
   111; 109; 58; 32; 13216; 10; 32; 32; 32; 32; 116; 111; 58; 32; 99; 109; 50; 10; 32; 32; 45; 32; 102; 114; 111; 109; 58; 32; 13217; 10;
   32; 32; 32; 32; 116; 111; 58; 32; 109; 50; 10; 32; 32; 45; 32; 102; 114; 111; 109; 58; 32; 13218; 10; 32; 32; 32; 32; 116; 111; 58;
   32; 107; 109; 50; 10; 32; 32; 45; 32; 102; 114; 111; 109; 58; 32; 13219; 10; 32; 32; 32; 32; 116; 111; 58; 32; 99; 109; 51; 10; 32;
   32; 45; 32; 102; 114; 111; 109; 58; 32; 13219; 10; 32; 32; 32; 32; 116; 111; 58; 32; 109; 109; 51; 10; 32; 32; 45; 32; 102; 114; 111;
   109; 58; 32; 13221; 10; 32; 32; 32; 32; 116; 111; 58; 32; 109; 51; 10; 32; 32; 45; 32; 102; 114; 111; 109; 58; 32; 13222; 10; 32; 32;
   32; 32; 116; 111; 58; 32; 107; 109; 51; 10; 32; 32; 45; 32; 102; 114; 111; 109; 58; 32; 13223; 10; 32; 32; 32; 32; 116; 111; 58; 32;
   109; 47; 115; 10; 32; 32; 45; 32; 102; 114; 111; 109; 58; 32; 13224; 10; 32; 32; 32; 32; 116; 111; 58; 32; 109; 47; 115; 50; 10; 32;
   32; 45; 32; 102; 114; 111; 109; 58; 32; 13225; 10; 32; 32; 32; 32; 116; 111; 58; 32; 80; 97; 10; 32; 32; 45; 32; 102; 114; 111; 109;
   58; 32; 13226; 10; 32; 32; 32; 32; 116; 111; 58; 32; 107; 80; 97; 10; 32; 32; 45; 32; 102; 114; 111; 109; 58; 32; 13227; 10; 32; 32;
   32; 32; 116; 111; 58; 32; 77; 80; 97; 10; 32; 32; 45; 32; 102; 114; 111; 109; 58; 32; 13228; 10; 32; 32; 32; 32; 116; 111; 58; 32;
   71; 80; 97; 10; 32; 32; 45; 32; 102; 114; 111; 109; 58; 32; 13229; 10; 32; 32; 32; 32; 116; 111; 58; 32; 114; 97; 100; 10; 32; 32;
   45; 32; 102; 114; 111; 109; 58; 32; 13230; 10; 32; 32; 32; 32; 116; 111; 58; 32; 114; 97; 100; 47; 115; 10; 32; 32; 45; 32; 102; 114;
   111; 109; 58; 32; 13231; 10; 32; 32; 32; 32; 116; 111; 58; 32; 114; 97; 100; 47; 115; 50; 10; 32; 32; 45; 32; 102; 114; 111; 109; 58;
   32; 13232; 10; 32; 32; 32; 32; 116; 111; 58; 32; 112; 115; 10; 32; 32; 45; 32; 102; 114; 111; 109; 58; 32; 13233; 10; 32; 32; 32; 32;
   116; 111; 58; 32; 110; 115; 10; 32; 32; 45; 32; 102; 114; 111; 109; 58; 32; 13234; 10; 32; 32; 32; 32; 116; 111; 58; 32; 181; 115; 10;
   32; 32; 45; 32; 102; 114; 111; 109; 58; 32; 13235; 10; 32; 32; 32; 32; 116; 111; 58; 32; 109; 115; 10; 32; 32; 45; 32; 102; 114; 111;
   109; 58; 32; 13236; 10; 32; 32; 32; 32; 116; 111; 58; 32; 112; 86; 10; 32; 32; 45; 32; 102; 114; 111; 109; 58; 32; 13237; 10; 32; 32;
   32; 32; 116; 111; 58; 32; 110; 86; 10; 32; 32; 45; 32; 102; 114; 111; 109; 58; 32; 13238; 10; 32; 32; 32; 32; 116; 111; 58; 32; 181;
   86; 10; 32; 32; 45; 32; 102; 114; 111; 109; 58; 32; 13239; 10; 32; 32; 32; 32; 116; 111; 58; 32; 109; 86; 10; 32; 32; 45; 32; 102;
   114; 111; 109; 58; 32; 13240; 10; 32; 32; 32; 32; 116; 111; 58; 32; 107; 86; 10; 32; 32; 45; 32; 102; 114; 111; 109; 58; 32; 13241; 10;
   32; 32; 32; 32; 116; 111; 58; 32; 77; 86; 10; 32; 32; 45; 32; 102; 114; 111; 109; 58; 32; 13242; 10; 32; 32; 32; 32; 116; 111; 58;
   32; 112; 87; 10; 32; 32; 45; 32; 102; 114; 111; 109; 58; 32; 13243; 10; 32; 32; 32; 32; 116; 111; 58; 32; 110; 87; 10; 32; 32; 45;
   32; 102; 114; 111; 109; 58; 32; 13244; 10; 32; 32; 32; 32; 116; 111; 58; 32; 181; 87; 10; 32; 32; 45; 32; 102; 114; 111; 109; 58; 32;
   13245; 10; 32; 32; 32; 32; 116; 111; 58; 32; 109; 87; 10; 32; 32; 45; 32; 102; 114; 111; 109; 58; 32; 13246; 10; 32; 32; 32; 32; 116;
   111; 58; 32; 107; 87; 10; 32; 32; 45; 32; 102; 114; 111; 109; 58; 32; 13247; 10; 32; 32; 32; 32; 116; 111; 58; 32; 77; 87; 10; 32;
   32; 45; 32; 102; 114; 111; 109; 58; 32; 13248; 10; 32; 32; 32; 32; 116; 111; 58; 32; 107; 937; 10; 32; 32; 45; 32; 102; 114; 111; 109;
   58; 32; 13249; 10; 32; 32; 32; 32; 116; 111; 58; 32; 77; 937; 10; 32; 32; 45; 32; 102; 114; 111; 109; 58; 32; 13250; 10; 32; 32; 32;
   32; 116; 111; 58; 32; 97; 46; 109; 46; 10; 32; 32; 45; 32; 102; 114; 111; 109; 58; 32; 13251; 10; 32; 32; 32; 32; 116; 111; 58; 32;
   66; 113; 10; 32; 32; 45; 32; 102; 114; 111; 109; 58; 32; 13252; 10; 32; 32; 32; 32; 116; 111; 58; 32; 99; 99; 10; 32; 32; 45; 32;
   102; 114; 111; 109; 58; 32; 13253; 10; 32; 32; 32; 32; 116; 111; 58; 32; 99; 100; 10; 32; 32; 45; 32; 102; 114; 111; 109; 58; 32; 13254;
   10; 32; 32; 32; 32; 116; 111; 58; 32; 67; 47; 107; 103; 10; 32; 32; 45; 32; 102; 114; 111; 109; 58; 32; 13255; 10; 32; 32; 32; 32;
   116; 111; 58; 32; 67; 111; 46; 10; 32; 32; 45; 32; 102; 114; 111; 109; 58; 32; 13256; 10; 32; 32; 32; 32; 116; 111; 58; 32; 100; 66;
   10; 32; 32; 45; 32; 102; 114; 111; 109; 58; 32; 13257; 10; 32; 32; 32; 32; 116; 111; 58; 32; 71; 121; 10; 32; 32; 45; 32; 102; 114;
   111; 109; 58; 32; 13258; 10; 32; 32; 32; 32; 116; 111; 58; 32; 104; 97; 10; 32; 32; 45; 32; 102; 114; 111; 109; 58; 32; 13259; 10; 32;
   32; 32; 32; 116; 111; 58; 32; 72; 80; 10; 32; 32; 45; 32; 102; 114; 111; 109; 58; 32; 13260; 10; 32; 32; 32; 32; 116; 111; 58; 32;
   105; 110; 10; 32; 32; 45; 32; 102; 114; 111; 109; 58; 32; 13261; 10; 32; 32; 32; 32; 116; 111; 58; 32; 75; 46; 10; 32; 32; 45; 32;
   102; 114; 111; 109; 58; 32; 13262; 10; 32; 32; 32; 32; 116; 111; 58; 32; 75; 77; 10; 32; 32; 45; 32; 102; 114; 111; 109; 58; 32; 13263;
   10; 32; 32; 32; 32; 116; 111; 58; 32; 107; 116; 10; 32; 32; 45; 32; 102; 114; 111; 109; 58; 32; 13264; 10; 32; 32; 32; 32; 116; 111;
   58; 32; 108; 109; 10; 32; 32; 45; 32; 102; 114; 111; 109; 58; 32; 13265; 10; 32; 32; 32; 32; 116; 111; 58; 32; 108; 110; 10; 32; 32;
   45; 32; 102; 114; 111; 109; 58; 32; 13266; 10; 32; 32; 32; 32; 116; 111; 58; 32; 108; 111; 103; 10; 32; 32; 45; 32; 102; 114; 111; 109;
   58; 32; 13267; 10; 32; 32; 32; 32; 116; 111; 58; 32; 108; 120; 10; 32; 32; 45; 32; 102; 114; 111; 109; 58; 32; 13268; 10; 32; 32; 32;
   32; 116; 111; 58; 32; 109; 98; 10; 32; 32; 45; 32; 102; 114; 111; 109; 58; 32; 13269; 10; 32; 32; 32; 32; 116; 111; 58; 32; 109; 105;
   108; 10; 32; 32; 45; 32; 102; 114; 111; 109; 58; 32; 13270; 10; 32; 32; 32; 32; 116; 111; 58; 32; 109; 111; 108; 10; 32; 32; 45; 32;
   102; 114; 111; 109; 58; 32; 13271; 10; 32; 32; 32; 32; 116; 111; 58; 32; 112; 72; 10; 32; 32; 45; 32; 102; 114; 111; 109; 58; 32; 13272;
   10; 32; 32; 32; 32; 116; 111; 58; 32; 112; 46; 109; 46; 10; 32; 32; 45; 32; 102; 114; 111; 109; 58; 32; 13273; 10; 32; 32; 32; 32;
   116; 111; 58; 32; 112; 112; 109; 10; 32; 32; 45; 32; 102; 114; 111; 109; 58; 32; 13274; 10; 32; 32; 32; 32; 116; 111; 58; 32; 80; 82;
   10; 32; 32; 45; 32; 102; 114; 111; 109; 58; 32; 13275; 10; 32; 32; 32; 32; 116; 111; 58; 32; 115; 114; 10; 32; 32; 45; 32; 102; 114;
   111; 109; 58; 32; 13276; 10; 32; 32; 32; 32; 116; 111; 58; 32; 83; 118; 10; 32; 32; 45; 32; 102; 114; 111; 109; 58; 32; 13277; 10; 32;
   32; 32; 32; 116; 111; 58; 32; 87; 98; 10; 32; 32; 45; 32; 102; 114; 111; 109; 58; 32; 13278; 10; 32; 32; 32; 32; 116; 111; 58; 32;
   86; 47; 109; 10; 32; 32; 45; 32; 102; 114; 111; 109; 58; 32; 13279; 10; 32; 32; 32; 32; 116; 111; 58; 32; 65; 47; 109; 10; 32; 32;
   45; 32; 102; 114; 111; 109; 58; 32; 13280; 10; 32; 32; 32; 32; 116; 111; 58; 32; 49; 26085; 10; 32; 32; 45; 32; 102; 114; 111; 109; 58;
   32; 13281; 10; 32; 32; 32; 32; 116; 111; 58; 32; 50; 26085; 10; 32; 32; 45; 32; 102; 114; 111; 109; 58; 32; 13282; 10; 32; 32; 32; 32;
   116; 111; 58; 32; 51; 26085; 10; 32; 32; 45; 32; 102; 114; 111; 109; 58; 32; 13283; 10; 32; 32; 32; 32; 116; 111; 58; 32; 52; 26085; 10;
   32; 32; 45; 32; 102; 114; 111; 109; 58; 32; 13284; 10; 32; 32; 32; 32; 116; 111; 58; 32; 53; 26085; 10; 32; 32; 45; 32; 102; 114; 111;
   109; 58; 32; 13285; 10; 32; 32; 32; 32; 116; 111; 58; 32; 54; 26085; 10; 32; 32; 45; 32; 102; 114; 111; 109; 58; 32; 13286; 10; 32; 32;
   32; 32; 116; 111; 58; 32; 55; 26085; 10; 32; 32; 45; 32; 102; 114; 111; 109; 58; 32; 13287; 10; 32; 32; 32; 32; 116; 111; 58; 32; 56;
   26085; 10; 32; 32; 45; 32; 102; 114; 111; 109; 58; 32; 13288; 10; 32; 32; 32; 32; 116; 111; 58; 32; 57; 26085; 10; 32; 32; 45; 32; 102;
   114; 111; 109; 58; 32; 13289; 10; 32; 32; 32; 32; 116; 111; 58; 32; 49; 48; 26085; 10; 32; 32; 45; 32; 102; 114; 111; 109; 58; 32; 13290;
   10; 32; 32; 32; 32; 116; 111; 58; 32; 49; 49; 26085; 10; 32; 32; 45; 32; 102; 114; 111; 109; 58; 32; 13291; 10; 32; 32; 32; 32; 116;
   111; 58; 32; 49; 50; 26085; 10; 32; 32; 45; 32; 102; 114; 111; 109; 58; 32; 13292; 10; 32; 32; 32; 32; 116; 111; 58; 32; 49; 51; 26085;
   10; 32; 32; 45; 32; 102; 114; 111; 109; 58; 32; 13293; 10; 32; 32; 32; 32; 116; 111; 58; 32; 49; 52; 26085; 10; 32; 32; 45; 32; 102;
   114; 111; 109; 58; 32; 13294; 10; 32; 32; 32; 32; 116; 111; 58; 32; 49; 53; 26085; 10; 32; 32; 45; 32; 102; 114; 111; 109; 58; 32; 13295;
   10; 32; 32; 32; 32; 116; 111; 58; 32; 49; 54; 26085; 10; 32; 32; 45; 32; 102; 114; 111; 109; 58; 32; 13296; 10; 32; 32; 32; 32; 116;
   111; 58; 32; 49; 55; 26085; 10; 32; 32; 45; 32; 102; 114; 111; 109; 58; 32; 13297; 10; 32; 32; 32; 32; 116; 111; 58; 32; 49; 56; 26085;
   10; 32; 32; 45; 32; 102; 114; 111; 109; 58; 32; 13298; 10; 32; 32; 32; 32; 116; 111; 58; 32; 49; 57; 26085; 10; 32; 32; 45; 32; 102;
   114; 111; 109; 58; 32; 13299; 10; 32; 32; 32; 32; 116; 111; 58; 32; 50; 48; 26085; 10; 32; 32; 45; 32; 102; 114; 111; 109; 58; 32; 13300;
   10; 32; 32; 32; 32; 116; 111; 58; 32; 50; 49; 26085; 10; 32; 32; 45; 32; 102; 114; 111; 109; 58; 32; 13301; 10; 32; 32; 32; 32; 116;
   111; 58; 32; 50; 50; 26085; 10; 32; 32; 45; 32; 102; 114; 111; 109; 58; 32; 13302; 10; 32; 32; 32; 32; 116; 111; 58; 32; 50; 51; 26085;
   10; 32; 32; 45; 32; 102; 114; 111; 109; 58; 32; 13303; 10; 32; 32; 32; 32; 116; 111; 58; 32; 50; 52; 26085; 10; 32; 32; 45; 32; 102;
   114; 111; 109; 58; 32; 13304; 10; 32; 32; 32; 32; 116; 111; 58; 32; 50; 53; 26085; 10; 32; 32; 45; 32; 102; 114; 111; 109; 58; 32; 13305;
   10; 32; 32; 32; 32; 116; 111; 58; 32; 50; 54; 26085; 10; 32; 32; 45; 32; 102; 114; 111; 109; 58; 32; 13306; 10; 32; 32; 32; 32; 116;
   111; 58; 32; 50; 55; 26085; 10; 32; 32; 45; 32; 102; 114; 111; 109; 58; 32; 13307; 10; 32; 32; 32; 32; 116; 111; 58; 32; 50; 56; 26085;
   10; 32; 32; 45; 32; 102; 114; 111; 109; 58; 32; 13308; 10; 32; 32; 32; 32; 116; 111; 58; 32; 50; 57; 26085; 10; 32; 32; 45; 32; 102;
   114; 111; 109; 58; 32; 13309; 10; 32; 32; 32; 32; 116; 111; 58; 32; 51; 48; 26085; 10; 32; 32; 45; 32; 102; 114; 111; 109; 58; 32; 13310;
   10; 32; 32; 32; 32; 116; 111; 58; 32; 51; 49; 26085; 10; 32; 32; 45; 32; 102; 114; 111; 109; 58; 32; 13311; 10; 32; 32; 32; 32; 116;
   111; 58; 32; 103; 97; 108; 10; 32; 32; 45; 32; 102; 114; 111; 109; 58; 32; 65123; 10; 32; 32; 32; 32; 116; 111; 58; 32; 12540; 10; 32;
   32; 45; 32; 102; 114; 111; 109; 58; 32; 65281; 10; 32; 32; 32; 32; 116; 111; 58; 32; 34; 33; 34; 10; 32; 32; 45; 32; 102; 114; 111;
   109; 58; 32; 65283; 10; 32; 32; 32; 32; 116; 111; 58; 32; 34; 35; 34; 10; 32; 32; 45; 32; 102; 114; 111; 109; 58; 32; 65284; 10; 32;
   32; 32; 32; 116; 111; 58; 32; 36; 10; 32; 32; 45; 32; 102; 114; 111; 109; 58; 32; 65285; 10; 32; 32; 32; 32; 116; 111; 58; 32; 34;
   37; 34; 10; 32; 32; 45; 32; 102; 114; 111; 109; 58; 32; 65286; 10; 32; 32; 32; 32; 116; 111; 58; 32; 34; 38; 34; 10; 32; 32; 45;
   32; 102; 114; 111; 109; 58; 32; 65288; 10; 32; 32; 32; 32; 116; 111; 58; 32; 40; 10; 32; 32; 45; 32; 102; 114; 111; 109; 58; 32; 65289;
   10; 32; 32; 32; 32; 116; 111; 58; 32; 41; 10; 32; 32; 45; 32; 102; 114; 111; 109; 58; 32; 65290; 10; 32; 32; 32; 32; 116; 111; 58;
   32; 34; 42; 34; 10; 32; 32; 45; 32; 102; 114; 111; 109; 58; 32; 65291; 10; 32; 32; 32; 32; 116; 111; 58; 32; 43; 10; 32; 32; 45;
   32; 102; 114; 111; 109; 58; 32; 65292; 10; 32; 32; 32; 32; 116; 111; 58; 32; 34; 44; 34; 10; 32; 32; 45; 32; 102; 114; 111; 109; 58;
   32; 65293; 10; 32; 32; 32; 32; 116; 111; 58; 32; 12540; 10; 32; 32; 45; 32; 102; 114; 111; 109; 58; 32; 65294; 10; 32; 32; 32; 32; 116;
   111; 58; 32; 34; 46; 34; 10; 32; 32; 45; 32; 102; 114; 111; 109; 58; 32; 65295; 10; 32; 32; 32; 32; 116; 111; 58; 32; 47; 10; 32;
   32; 45; 32; 102; 114; 111; 109; 58; 32; 65296; 10; 32; 32; 32; 32; 116; 111; 58; 32; 34; 48; 34; 10; 32; 32; 45; 32; 102; 114; 111;
   109; 58; 32; 65297; 10; 32; 32; 32; 32; 116; 111; 58; 32; 34; 49; 34; 10; 32; 32; 45; 32; 102; 114; 111; 109; 58; 32; 65298; 10; 32;
   32; 32; 32; 116; 111; 58; 32; 34; 50; 34; 10; 32; 32; 45; 32; 102; 114; 111; 109; 58; 32; 65299; 10; 32; 32; 32; 32; 116; 111; 58;
   32; 34; 51; 34; 10; 32; 32; 45; 32; 102; 114; 111; 109; 58; 32; 65300; 10; 32; 32; 32; 32; 116; 111; 58; 32; 34; 52; 34; 10; 32;
   32; 45; 32; 102; 114; 111; 109; 58; 32; 65301; 10; 32; 32; 32; 32; 116; 111; 58; 32; 34; 53; 34; 10; 32; 32; 45; 32; 102; 114; 111;
   109; 58; 32; 65302; 10; 32; 32; 32; 32; 116; 111; 58; 32; 34; 54; 34; 10; 32; 32; 45; 32; 102; 114; 111; 109; 58; 32; 65303; 10; 32;
   32; 32; 32; 116; 111; 58; 32; 34; 55; 34; 10; 32; 32; 45; 32; 102; 114; 111; 109; 58; 32; 65304; 10; 32; 32; 32; 32; 116; 111; 58;
   32; 34; 56; 34; 10; 32; 32; 45; 32; 102; 114; 111; 109; 58; 32; 65305; 10; 32; 32; 32; 32; 116; 111; 58; 32; 34; 57; 34; 10; 32;
   32; 45; 32; 102; 114; 111; 109; 58; 32; 65306; 10; 32; 32; 32; 32; 116; 111; 58; 32; 34; 58; 34; 10; 32; 32; 45; 32; 102; 114; 111;
   109; 58; 32; 65307; 10; 32; 32; 32; 32; 116; 111; 58; 32; 59; 10; 32; 32; 45; 32; 102; 114; 111; 109; 58; 32; 65308; 10; 32; 32; 32;
   32; 116; 111; 58; 32; 34; 60; 34; 10; 32; 32; 45; 32; 102; 114; 111; 109; 58; 32; 65309; 10; 32; 32; 32; 32; 116; 111; 58; 32; 34;
   61; 34; 10; 32; 32; 45; 32; 102; 114; 111; 109; 58; 32; 65310; 10; 32; 32; 32; 32; 116; 111; 58; 32; 34; 62; 34; 10; 32; 32; 45;
   32; 102; 114; 111; 109; 58; 32; 65311; 10; 32; 32; 32; 32; 116; 111; 58; 32; 34; 63; 34; 10; 32; 32; 45; 32; 102; 114; 111; 109; 58;
   32; 65312; 10; 32; 32; 32; 32; 116; 111; 58; 32; 34; 64; 34; 10; 32; 32; 45; 32; 102; 114; 111; 109; 58; 32; 65313; 10; 32; 32; 32;
   32; 116; 111; 58; 32; 65; 10; 32; 32; 45; 32; 102; 114; 111; 109; 58; 32; 65314; 10; 32; 32; 32; 32; 116; 111; 58; 32; 66; 10; 32;
   32; 45; 32; 102; 114; 111; 109; 58; 32; 65315; 10; 32; 32; 32; 32; 116; 111; 58; 32; 67; 10; 32; 32; 45; 32; 102; 114; 111; 109; 58;
   32; 65316; 10; 32; 32; 32; 32; 116; 111; 58; 32; 68; 10; 32; 32; 45; 32; 102; 114; 111; 109; 58; 32; 65317; 10; 32; 32; 32; 32; 116;
   111; 58; 32; 69; 10; 32; 32; 45; 32; 102; 114; 111; 109; 58; 32; 65318; 10; 32; 32; 32; 32; 116; 111; 58; 32; 70; 10; 32; 32; 45;
   32; 102; 114; 111; 109; 58; 32; 65319; 10; 32; 32; 32; 32; 116; 111; 58; 32; 71; 10; 32; 32; 45; 32; 102; 114; 111; 109; 58; 32; 65320;
   10; 32; 32; 32; 32; 116; 111; 58; 32; 72; 10; 32; 32; 45; 32; 102; 114; 111; 109; 58; 32; 65321; 10; 32; 32; 32; 32; 116; 111; 58;
   32; 73; 10; 32; 32; 45; 32; 102; 114; 111; 109; 58; 32; 65322; 10; 32; 32; 32; 32; 116; 111; 58; 32; 74; 10; 32; 32; 45; 32; 102;
   114; 111; 109; 58; 32; 65323; 10; 32; 32; 32; 32; 116; 111; 58; 32; 75; 10; 32; 32; 45; 32; 102; 114; 111; 109; 58; 32; 65324; 10; 32;
   32; 32; 32; 116; 111; 58; 32; 76; 10; 32; 32; 45; 32; 102; 114; 111; 109; 58; 32; 65325; 10; 32; 32; 32; 32; 116; 111; 58; 32; 77;
   10; 32; 32; 45; 32; 102; 114; 111; 109; 58; 32; 65326; 10; 32; 32; 32; 32; 116; 111; 58; 32; 78; 10; 32; 32; 45; 32; 102; 114; 111;
   109; 58; 32; 65327; 10; 32; 32; 32; 32; 116; 111; 58; 32; 79; 10; 32; 32; 45; 32; 102; 114; 111; 109; 58; 32; 65328; 10; 32; 32; 32;
   32; 116; 111; 58; 32; 80; 10; 32; 32; 45; 32; 102; 114; 111; 109; 58; 32; 65329; 10; 32; 32; 32; 32; 116; 111; 58; 32; 81; 10; 32;
   32; 45; 32; 102; 114; 111; 109; 58; 32; 65330; 10; 32; 32; 32; 32; 116; 111; 58; 32; 82; 10; 32; 32; 45; 32; 102; 114; 111; 109; 58;
   32; 65331; 10; 32; 32; 32; 32; 116; 111; 58; 32; 83; 10; 32; 32; 45; 32; 102; 114; 111; 109; 58; 32; 65332; 10; 32; 32; 32; 32; 116;
   111; 58; 32; 84; 10; 32; 32; 45; 32; 102; 114; 111; 109; 58; 32; 65333; 10; 32; 32; 32; 32; 116; 111; 58; 32; 85; 10; 32; 32; 45;
   32; 102; 114; 111; 109; 58; 32; 65334; 10; 32; 32; 32; 32; 116; 111; 58; 32; 86; 10; 32; 32; 45; 32; 102; 114; 111; 109; 58; 32; 65335;
   10; 32; 32; 32; 32; 116; 111; 58; 32; 87; 10; 32; 32; 45; 32; 102; 114; 111; 109; 58; 32; 65336; 10; 32; 32; 32; 32; 116; 111; 58;
   32; 88; 10; 32; 32; 45; 32; 102; 114; 111; 109; 58; 32; 65337; 10; 32; 32; 32; 32; 116; 111; 58; 32; 89; 10; 32; 32; 45; 32; 102;
   114; 111; 109; 58; 32; 65338; 10; 32; 32; 32; 32; 116; 111; 58; 32; 90; 10; 32; 32; 45; 32; 102; 114; 111; 109; 58; 32; 65339; 10; 32;
   32; 32; 32; 116; 111; 58; 32; 34; 91; 34; 10; 32; 32; 45; 32; 102; 114; 111; 109; 58; 32; 65340; 10; 32; 32; 32; 32; 116; 111; 58;
   32; 34; 92; 92; 34; 10; 32; 32; 45; 32; 102; 114; 111; 109; 58; 32; 65341; 10; 32; 32; 32; 32; 116; 111; 58; 32; 34; 93; 34; 10;
   32; 32; 45; 32; 102; 114; 111; 109; 58; 32; 65342; 10; 32; 32; 32; 32; 116; 111; 58; 32; 94; 10; 32; 32; 45; 32; 102; 114; 111; 109;
   58; 32; 65343; 10; 32; 32; 32; 32; 116; 111; 58; 32; 95; 10; 32; 32; 45; 32; 102; 114; 111; 109; 58; 32; 65344; 10; 32; 32; 32; 32;
   116; 111; 58; 32; 34; 96; 34; 10; 32; 32; 45; 32; 102; 114; 111; 109; 58; 32; 65345; 10; 32; 32; 32; 32; 116; 111; 58; 32; 97; 10;
   32; 32; 45; 32; 102; 114; 111; 109; 58; 32; 65346; 10; 32; 32; 32; 32; 116; 111; 58; 32; 98; 10; 32; 32; 45; 32; 102; 114; 111; 109;
   58; 32; 65347; 10; 32; 32; 32; 32; 116; 111; 58; 32; 99; 10; 32; 32; 45; 32; 102; 114; 111; 109; 58; 32; 65348; 10; 32; 32; 32; 32;
   116; 111; 58; 32; 100; 10; 32; 32; 45; 32; 102; 114; 111; 109; 58; 32; 65349; 10; 32; 32; 32; 32; 116; 111; 58; 32; 101; 10; 32; 32;
   45; 32; 102; 114; 111; 109; 58; 32; 65350; 10; 32; 32; 32; 32; 116; 111; 58; 32; 102; 10; 32; 32; 45; 32; 102; 114; 111; 109; 58; 32;
   65351; 10; 32; 32; 32; 32; 116; 111; 58; 32; 103; 10; 32; 32; 45; 32; 102; 114; 111; 109; 58; 32; 65352; 10; 32; 32; 32; 32; 116; 111;
   58; 32; 104; 10; 32; 32; 45; 32; 102; 114; 111; 109; 58; 32; 65353; 10; 32; 32; 32; 32; 116; 111; 58; 32; 105; 10; 32; 32; 45; 32;
   102; 114; 111; 109; 58; 32; 65354; 10; 32; 32; 32; 32; 116; 111; 58; 32; 106; 10; 32; 32; 45; 32; 102; 114; 111; 109; 58; 32; 65355; 10;
   32; 32; 32; 32; 116; 111; 58; 32; 107; 10; 32; 32; 45; 32; 102; 114; 111; 109; 58; 32; 65356; 10; 32; 32; 32; 32; 116; 111; 58; 32;
   108; 10; 32; 32; 45; 32; 102; 114; 111; 109; 58; 32; 65357; 10; 32; 32; 32; 32; 116; 111; 58; 32; 109; 10; 32; 32; 45; 32; 102; 114;
   111; 109; 58; 32; 65358; 10; 32; 32; 32; 32; 116; 111; 58; 32; 110; 10; 32; 32; 45; 32; 102; 114; 111; 109; 58; 32; 65359; 10; 32; 32;
   32; 32; 116; 111; 58; 32; 111; 10; 32; 32; 45; 32; 102; 114; 111; 109; 58; 32; 65360; 10; 32; 32; 32; 32; 116; 111; 58; 32; 112; 10;
   32; 32; 45; 32; 102; 114; 111; 109; 58; 32; 65361; 10; 32; 32; 32; 32; 116; 111; 58; 32; 113; 10; 32; 32; 45; 32; 102; 114; 111; 109;
   58; 32; 65362; 10; 32; 32; 32; 32; 116; 111; 58; 32; 114; 10; 32; 32; 45; 32; 102; 114; 111; 109; 58; 32; 65363; 10; 32; 32; 32; 32;
   116; 111; 58; 32; 115; 10; 32; 32; 45; 32; 102; 114; 111; 109; 58; 32; 65364; 10; 32; 32; 32; 32; 116; 111; 58; 32; 116; 10; 32; 32;
   45; 32; 102; 114; 111; 109; 58; 32; 65365; 10; 32; 32; 32; 32; 116; 111; 58; 32; 117; 10; 32; 32; 45; 32; 102; 114; 111; 109; 58; 32;
   65366; 10; 32; 32; 32; 32; 116; 111; 58; 32; 118; 10; 32; 32; 45; 32; 102; 114; 111; 109; 58; 32; 65367; 10; 32; 32; 32; 32; 116; 111;
   58; 32; 119; 10; 32; 32; 45; 32; 102; 114; 111; 109; 58; 32; 65368; 10; 32; 32; 32; 32; 116; 111; 58; 32; 120; 10; 32; 32; 45; 32;
   102; 114; 111; 109; 58; 32; 65369; 10; 32; 32; 32; 32; 116; 111; 58; 32; 121; 10; 32; 32; 45; 32; 102; 114; 111; 109; 58; 32; 65370; 10;
   32; 32; 32; 32; 116; 111; 58; 32; 122; 10; 32; 32; 45; 32; 102; 114; 111; 109; 58; 32; 65371; 10; 32; 32; 32; 32; 116; 111; 58; 32;
   34; 123; 34; 10; 32; 32; 45; 32; 102; 114; 111; 109; 58; 32; 65372; 10; 32; 32; 32; 32; 116; 111; 58; 32; 34; 124; 34; 10; 32; 32;
   45; 32; 102; 114; 111; 109; 58; 32; 65373; 10; 32; 32; 32; 32; 116; 111; 58; 32; 34; 125; 34; 10; 32; 32; 45; 32; 102; 114; 111; 109;
   58; 32; 65374; 10; 32; 32; 32; 32; 116; 111; 58; 32; 34; 126; 34; 10; 32; 32; 45; 32; 102; 114; 111; 109; 58; 32; 65377; 10; 32; 32;
   32; 32; 116; 111; 58; 32; 12290; 10; 32; 32; 45; 32; 102; 114; 111; 109; 58; 32; 65378; 10; 32; 32; 32; 32; 116; 111; 58; 32; 12300; 10;
   32; 32; 45; 32; 102; 114; 111; 109; 58; 32; 65379; 10; 32; 32; 32; 32; 116; 111; 58; 32; 12301; 10; 32; 32; 45; 32; 102; 114; 111; 109;
   58; 32; 65380; 10; 32; 32; 32; 32; 116; 111; 58; 32; 12289; 10; 32; 32; 45; 32; 102; 114; 111; 109; 58; 32; 65381; 10; 32; 32; 32; 32;
   116; 111; 58; 32; 12539; 10; 32; 32; 45; 32; 102; 114; 111; 109; 58; 32; 65382; 10; 32; 32; 32; 32; 116; 111; 58; 32; 12530; 10; 32; 32;
   45; 32; 102; 114; 111; 109; 58; 32; 65383; 10; 32; 32; 32; 32; 116; 111; 58; 32; 12449; 10; 32; 32; 45; 32; 102; 114; 111; 109; 58; 32;
   65384; 10; 32; 32; 32; 32; 116; 111; 58; 32; 12451; 10; 32; 32; 45; 32; 102; 114; 111; 109; 58; 32; 65385; 10; 32; 32; 32; 32; 116; 111;
   58; 32; 12453; 10; 32; 32; 45; 32; 102; 114; 111; 109; 58; 32; 65386; 10; 32; 32; 32; 32; 116; 111; 58; 32; 12455; 10; 32; 32; 45; 32;
   102; 114; 111; 109; 58; 32; 65387; 10; 32; 32; 32; 32; 116; 111; 58; 32; 12457; 10; 32; 32; 45; 32; 102; 114; 111; 109; 58; 32; 65388; 10;
   32; 32; 32; 32; 116; 111; 58; 32; 12515; 10; 32; 32; 45; 32; 102; 114; 111; 109; 58; 32; 65389; 10; 32; 32; 32; 32; 116; 111; 58; 32;
   12517; 10; 32; 32; 45; 32; 102; 114; 111; 109; 58; 32; 65390; 10; 32; 32; 32; 32; 116; 111; 58; 32; 12519; 10; 32; 32; 45; 32; 102; 114;
   111; 109; 58; 32; 65391; 10; 32; 32; 32; 32; 116; 111; 58; 32; 12483; 10; 32; 32; 45; 32; 102; 114; 111; 109; 58; 32; 65392; 10; 32; 32;
   32; 32; 116; 111; 58; 32; 12540; 10; 32; 32; 45; 32; 102; 114; 111; 109; 58; 32; 65393; 10; 32; 32; 32; 32; 116; 111; 58; 32; 12450; 10;
   32; 32; 45; 32; 102; 114; 111; 109; 58; 32; 65394; 10; 32; 32; 32; 32; 116; 111; 58; 32; 12452; 10; 32; 32; 45; 32; 102; 114; 111; 109;
   58; 32; 65395; 10; 32; 32; 32; 32; 116; 111; 58; 32; 12454; 10; 32; 32; 45; 32; 102; 114; 111; 109; 58; 32; 65396; 10; 32; 32; 32; 32;
   116; 111; 58; 32; 12456; 10; 32; 32; 45; 32; 102; 114; 111; 109; 58; 32; 65397; 10; 32; 32; 32; 32; 116; 111; 58; 32; 12458; 10; 32; 32;
   45; 32; 102; 114; 111; 109; 58; 32; 65398; 10; 32; 32; 32; 32; 116; 111; 58; 32; 12459; 10; 32; 32; 45; 32; 102; 114; 111; 109; 58; 32;
   65399; 10; 32; 32; 32; 32; 116; 111; 58; 32; 12461; 10; 32; 32; 45; 32; 102; 114; 111; 109; 58; 32; 65400; 10; 32; 32; 32; 32; 116; 111;
   58; 32; 12463; 10; 32; 32; 45; 32; 102; 114; 111; 109; 58; 32; 65401; 10; 32; 32; 32; 32; 116; 111; 58; 32; 12465; 10; 32; 32; 45; 32;
   102; 114; 111; 109; 58; 32; 65402; 10; 32; 32; 32; 32; 116; 111; 58; 32; 12467; 10; 32; 32; 45; 32; 102; 114; 111; 109; 58; 32; 65403; 10;
   32; 32; 32; 32; 116; 111; 58; 32; 12469; 10; 32; 32; 45; 32; 102; 114; 111; 109; 58; 32; 65404; 10; 32; 32; 32; 32; 116; 111; 58; 32;
   12471; 10; 32; 32; 45; 32; 102; 114; 111; 109; 58; 32; 65405; 10; 32; 32; 32; 32; 116; 111; 58; 32; 12473; 10; 32; 32; 45; 32; 102; 114;
   111; 109; 58; 32; 65406; 10; 32; 32; 32; 32; 116; 111; 58; 32; 12475; 10; 32; 32; 45; 32; 102; 114; 111; 109; 58; 32; 65407; 10; 32; 32;
   32; 32; 116; 111; 58; 32; 12477; 10; 32; 32; 45; 32; 102; 114; 111; 109; 58; 32; 65408; 10; 32; 32; 32; 32; 116; 111; 58; 32; 12479; 10;
   32; 32; 45; 32; 102; 114; 111; 109; 58; 32; 65409; 10; 32; 32; 32; 32; 116; 111; 58; 32; 12481; 10; 32; 32; 45; 32; 102; 114; 111; 109;
   58; 32; 65410; 10; 32; 32; 32; 32; 116; 111; 58; 32; 12484; 10; 32; 32; 45; 32; 102; 114; 111; 109; 58; 32; 65411; 10; 32; 32; 32; 32;
   116; 111; 58; 32; 12486; 10; 32; 32; 45; 32; 102; 114; 111; 109; 58; 32; 65412; 10; 32; 32; 32; 32; 116; 111; 58; 32; 12488; 10; 32; 32;
   45; 32; 102; 114; 111; 109; 58; 32; 65413; 10; 32; 32; 32; 32; 116; 111; 58; 32; 12490; 10; 32; 32; 45; 32; 102; 114; 111; 109; 58; 32;
   65414; 10; 32; 32; 32; 32; 116; 111; 58; 32; 12491; 10; 32; 32; 45; 32; 102; 114; 111; 109; 58; 32; 65415; 10; 32; 32; 32; 32; 116; 111;
   58; 32; 12492; 10; 32; 32; 45; 32; 102; 114; 111; 109; 58; 32; 65416; 10; 32; 32; 32; 32; 116; 111; 58; 32; 12493; 10; 32; 32; 45; 32;
   102; 114; 111; 109; 58; 32; 65417; 10; 32; 32; 32; 32; 116; 111; 58; 32; 12494; 10; 32; 32; 45; 32; 102; 114; 111; 109; 58; 32; 65418; 10;
   32; 32; 32; 32; 116; 111; 58; 32; 12495; 10; 32; 32; 45; 32; 102; 114; 111; 109; 58; 32; 65419; 10; 32; 32; 32; 32; 116; 111; 58; 32;
   12498; 10; 32; 32; 45; 32; 102; 114; 111; 109; 58; 32; 65420; 10; 32; 32; 32; 32; 116; 111; 58; 32; 12501; 10; 32; 32; 45; 32; 102; 114;
   111; 109; 58; 32; 65421; 10; 32; 32; 32; 32; 116; 111; 58; 32; 12504; 10; 32; 32; 45; 32; 102; 114; 111; 109; 58; 32; 65422; 10; 32; 32;
   32; 32; 116; 111; 58; 32; 12507; 10; 32; 32; 45; 32; 102; 114; 111; 109; 58; 32; 65423; 10; 32; 32; 32; 32; 116; 111; 58; 32; 12510; 10;
   32; 32; 45; 32; 102; 114; 111; 109; 58; 32; 65424; 10; 32; 32; 32; 32; 116; 111; 58; 32; 12511; 10; 32; 32; 45; 32; 102; 114; 111; 109;
   58; 32; 65425; 10; 32; 32; 32; 32; 116; 111; 58; 32; 12512; 10; 32; 32; 45; 32; 102; 114; 111; 109; 58; 32; 65426; 10; 32; 32; 32; 32;
   116; 111; 58; 32; 12513; 10; 32; 32; 45; 32; 102; 114; 111; 109; 58; 32; 65427; 10; 32; 32; 32; 32; 116; 111; 58; 32; 12514; 10; 32; 32;
   45; 32; 102; 114; 111; 109; 58; 32; 65428; 10; 32; 32; 32; 32; 116; 111; 58; 32; 12516; 10; 32; 32; 45; 32; 102; 114; 111; 109; 58; 32;
   65429; 10; 32; 32; 32; 32; 116; 111; 58; 32; 12518; 10; 32; 32; 45; 32; 102; 114; 111; 109; 58; 32; 65430; 10; 32; 32; 32; 32; 116; 111;
   58; 32; 12520; 10; 32; 32; 45; 32; 102; 114; 111; 109; 58; 32; 65431; 10; 32; 32; 32; 32; 116; 111; 58; 32; 12521; 10; 32; 32; 45; 32;
   102; 114; 111; 109; 58; 32; 65432; 10; 32; 32; 32; 32; 116; 111; 58; 32; 12522; 10; 32; 32; 45; 32; 102; 114; 111; 109; 58; 32; 65433; 10;
   32; 32; 32; 32; 116; 111; 58; 32; 12523; 10; 32; 32; 45; 32; 102; 114; 111; 109; 58; 32; 65434; 10; 32; 32; 32; 32; 116; 111; 58; 32;
   12524; 10; 32; 32; 45; 32; 102; 114; 111; 109; 58; 32; 65435; 10; 32; 32; 32; 32; 116; 111; 58; 32; 12525; 10; 32; 32; 45; 32; 102; 114;
   111; 109; 58; 32; 65436; 10; 32; 32; 32; 32; 116; 111; 58; 32; 12527; 10; 32; 32; 45; 32; 102; 114; 111; 109; 58; 32; 65437; 10; 32; 32;
   32; 32; 116; 111; 58; 32; 12531; 10].
