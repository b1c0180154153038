(** The assertions of the repository's own tests, replayed on the model (generated by tools/mktests.py
    from /repo/tests, the doc tests and unit tests of /repo/src, /repo/README.md and
    /repo/bindings/python3/tests).  They show that the model computes what the program is known to compute. *)
From Coq Require Import String.
From Verif Require Import Base StrOps Corr CharsetData Table Charset Position Converter Eliminator Ligature Neologdn ModifierKind
  PathModel Yaml File ChanomaModel Configuration Cli Python.
Local Open Scope string_scope.
Local Open Scope list_scope.

(** Two iteration orders: as stored, and a scrambled one. *)
Definition as_stored : sched := fun _ => [].
Definition scrambled : sched := fun p => [7 + length p; 3; 11; 5; 2; 1; 4; 1; 1; 3].
(** The Chanoma made by [mk] turns the first component of each pair into the second. *)
Definition passes (o : sched) (mk : sched -> outcome chanoma) (plain with_positions : list (str * str)) : Prop :=
  (c <- mk o ;; Ok (map (fun st => normalize false o c (fst st)) plain,
                    map (fun st => rs <- normalize_with_positions o c (fst st) ;; records_text rs) with_positions)) =
  Ok (map (fun st => Ok (snd st)) plain, map (fun st => Ok (snd st)) with_positions).

(** ** /repo/tests/neologdn.rs: all 43 assertions *)
Definition neologdn_plain : list (str * str) := [
  (([97; 98; 99]%N : str), ([97; 98; 99]%N : str));
  (([65296; 65297; 65298; 65299; 65300; 65301; 65302; 65303; 65304; 65305]%N : str), ([48; 49; 50; 51; 52; 53; 54; 55; 56; 57]%N : str));
  (([65313; 65314; 65315; 65316; 65317; 65318; 65319; 65320; 65321; 65322; 65323; 65324; 65325; 65326; 65327; 65328; 65329; 65330; 65331; 65332; 65333; 65334; 65335; 65336; 65337; 65338]%N : str), ([65; 66; 67; 68; 69; 70; 71; 72; 73; 74; 75; 76; 77; 78; 79; 80; 81; 82; 83; 84; 85; 86; 87; 88; 89; 90]%N : str));
  (([65345; 65346; 65347; 65348; 65349; 65350; 65351; 65352; 65353; 65354; 65355; 65356; 65357; 65358; 65359; 65360; 65361; 65362; 65363; 65364; 65365; 65366; 65367; 65368; 65369; 65370]%N : str), ([97; 98; 99; 100; 101; 102; 103; 104; 105; 106; 107; 108; 109; 110; 111; 112; 113; 114; 115; 116; 117; 118; 119; 120; 121; 122]%N : str));
  (([65281; 8221; 65283; 65284; 65285; 65286; 8217; 65288; 65289; 65290; 65291; 65292; 65293; 65294; 65295; 65306; 65307; 65308; 65310; 65311; 65312; 65339; 65509; 65341; 65342; 65343; 65344; 65371; 65372; 65373]%N : str), ([33; 34; 35; 36; 37; 38; 39; 40; 41; 42; 43; 44; 45; 46; 47; 58; 59; 60; 62; 63; 64; 91; 165; 93; 94; 95; 96; 123; 124; 125]%N : str));
  (([65309; 12290; 12289; 12539; 12300; 12301]%N : str), ([65309; 12290; 12289; 12539; 12300; 12301]%N : str));
  (([65418; 65437; 65398; 65400]%N : str), ([12495; 12531; 12459; 12463]%N : str));
  (([111; 8331; 111]%N : str), ([111; 45; 111]%N : str));
  (([109; 97; 106; 105; 107; 97; 9473]%N : str), ([109; 97; 106; 105; 107; 97; 12540]%N : str));
  (([12431; 12336; 12356]%N : str), ([12431; 12356]%N : str));
  (([12473; 12540; 12497; 12540; 12540; 12540; 12540]%N : str), ([12473; 12540; 12497; 12540]%N : str));
  (([33; 35]%N : str), ([33; 35]%N : str));
  (([12476; 12531; 12459; 12463; 12288; 12473; 12506; 12540; 12473]%N : str), ([12476; 12531; 12459; 12463; 12473; 12506; 12540; 12473]%N : str));
  (([12362; 32; 32; 32; 32; 32; 32; 32; 32; 32; 32; 32; 32; 32; 12362]%N : str), ([12362; 12362]%N : str));
  (([32; 32; 32; 32; 32; 32; 12362; 12362]%N : str), ([12362; 12362]%N : str));
  (([12362; 12362; 32; 32; 32; 32; 32; 32]%N : str), ([12362; 12362]%N : str));
  (([67; 111; 100; 105; 110; 103; 32; 116; 104; 101; 32; 77; 97; 116; 114; 105; 120]%N : str), ([67; 111; 100; 105; 110; 103; 32; 116; 104; 101; 32; 77; 97; 116; 114; 105; 120]%N : str));
  (([21335; 12450; 12523; 12503; 12473; 12398; 12288; 22825; 28982; 27700; 12288; 65331; 65360; 65345; 65362; 65355; 65353; 65358; 65351; 12288; 65324; 65349; 65357; 65359; 65358; 12288; 12524; 12514; 12531; 19968; 32094; 12426]%N : str), ([21335; 12450; 12523; 12503; 12473; 12398; 22825; 28982; 27700; 83; 112; 97; 114; 107; 105; 110; 103; 32; 76; 101; 109; 111; 110; 12524; 12514; 12531; 19968; 32094; 12426]%N : str));
  (([21335; 12450; 12523; 12503; 12473; 12398; 12288; 22825; 28982; 27700; 45; 12288; 65331; 65360; 65345; 65362; 65355; 65353; 65358; 65351; 42; 12288; 65324; 65349; 65357; 65359; 65358; 43; 12288; 12524; 12514; 12531; 19968; 32094; 12426]%N : str), ([21335; 12450; 12523; 12503; 12473; 12398; 22825; 28982; 27700; 45; 83; 112; 97; 114; 107; 105; 110; 103; 42; 76; 101; 109; 111; 110; 43; 12524; 12514; 12531; 19968; 32094; 12426]%N : str));
  (([12354; 12399; 12443; 12428; 12427; 12288; 12450; 12495; 12444; 12507; 12486; 12523]%N : str), ([12354; 12400; 12428; 12427; 12450; 12497; 12507; 12486; 12523]%N : str))].
Definition neologdn_positions : list (str * str) := [
  (([97; 98; 99]%N : str), ([97; 98; 99]%N : str));
  (([65296; 65297; 65298; 65299; 65300; 65301; 65302; 65303; 65304; 65305]%N : str), ([48; 49; 50; 51; 52; 53; 54; 55; 56; 57]%N : str));
  (([65313; 65314; 65315; 65316; 65317; 65318; 65319; 65320; 65321; 65322; 65323; 65324; 65325; 65326; 65327; 65328; 65329; 65330; 65331; 65332; 65333; 65334; 65335; 65336; 65337; 65338]%N : str), ([65; 66; 67; 68; 69; 70; 71; 72; 73; 74; 75; 76; 77; 78; 79; 80; 81; 82; 83; 84; 85; 86; 87; 88; 89; 90]%N : str));
  (([65345; 65346; 65347; 65348; 65349; 65350; 65351; 65352; 65353; 65354; 65355; 65356; 65357; 65358; 65359; 65360; 65361; 65362; 65363; 65364; 65365; 65366; 65367; 65368; 65369; 65370]%N : str), ([97; 98; 99; 100; 101; 102; 103; 104; 105; 106; 107; 108; 109; 110; 111; 112; 113; 114; 115; 116; 117; 118; 119; 120; 121; 122]%N : str));
  (([65281; 8221; 65283; 65284; 65285; 65286; 8217; 65288; 65289; 65290; 65291; 65292; 65293; 65294; 65295; 65306; 65307; 65308; 65310; 65311; 65312; 65339; 65509; 65341; 65342; 65343; 65344; 65371; 65372; 65373]%N : str), ([33; 34; 35; 36; 37; 38; 39; 40; 41; 42; 43; 44; 45; 46; 47; 58; 59; 60; 62; 63; 64; 91; 165; 93; 94; 95; 96; 123; 124; 125]%N : str));
  (([65309; 12290; 12289; 12539; 12300; 12301]%N : str), ([65309; 12290; 12289; 12539; 12300; 12301]%N : str));
  (([65418; 65437; 65398; 65400]%N : str), ([12495; 12531; 12459; 12463]%N : str));
  (([111; 8331; 111]%N : str), ([111; 45; 111]%N : str));
  (([109; 97; 106; 105; 107; 97; 9473]%N : str), ([109; 97; 106; 105; 107; 97; 12540]%N : str));
  (([12431; 12336; 12356]%N : str), ([12431; 12356]%N : str));
  (([12473; 12540; 12497; 12540; 12540; 12540; 12540]%N : str), ([12473; 12540; 12497; 12540]%N : str));
  (([33; 35]%N : str), ([33; 35]%N : str));
  (([12476; 12531; 12459; 12463; 12288; 12473; 12506; 12540; 12473]%N : str), ([12476; 12531; 12459; 12463; 12473; 12506; 12540; 12473]%N : str));
  (([12362; 32; 32; 32; 32; 32; 32; 32; 32; 32; 32; 32; 32; 32; 12362]%N : str), ([12362; 12362]%N : str));
  (([32; 32; 32; 32; 32; 32; 12362; 12362]%N : str), ([12362; 12362]%N : str));
  (([12362; 12362; 32; 32; 32; 32; 32; 32]%N : str), ([12362; 12362]%N : str));
  (([26908; 32034; 32; 12456; 12531; 12472; 12531; 32; 33258; 20316; 32; 20837; 38272; 32; 12434; 32; 36023; 12356; 32; 12414; 12375; 12383; 33; 33; 33]%N : str), ([26908; 32034; 12456; 12531; 12472; 12531; 33258; 20316; 20837; 38272; 12434; 36023; 12356; 12414; 12375; 12383; 33; 33; 33]%N : str));
  (([12450; 12523; 12468; 12522; 12474; 12512; 32; 67]%N : str), ([12450; 12523; 12468; 12522; 12474; 12512; 67]%N : str));
  (([12288; 12288; 12288; 65328; 65330; 65325; 65324; 12288; 12288; 21103; 12288; 35501; 12288; 26412; 12288; 12288; 12288]%N : str), ([80; 82; 77; 76; 21103; 35501; 26412]%N : str));
  (([67; 111; 100; 105; 110; 103; 32; 116; 104; 101; 32; 77; 97; 116; 114; 105; 120]%N : str), ([67; 111; 100; 105; 110; 103; 32; 116; 104; 101; 32; 77; 97; 116; 114; 105; 120]%N : str));
  (([21335; 12450; 12523; 12503; 12473; 12398; 12288; 22825; 28982; 27700; 12288; 65331; 65360; 65345; 65362; 65355; 65353; 65358; 65351; 12288; 65324; 65349; 65357; 65359; 65358; 12288; 12524; 12514; 12531; 19968; 32094; 12426]%N : str), ([21335; 12450; 12523; 12503; 12473; 12398; 22825; 28982; 27700; 83; 112; 97; 114; 107; 105; 110; 103; 32; 76; 101; 109; 111; 110; 12524; 12514; 12531; 19968; 32094; 12426]%N : str));
  (([21335; 12450; 12523; 12503; 12473; 12398; 12288; 22825; 28982; 27700; 45; 12288; 65331; 65360; 65345; 65362; 65355; 65353; 65358; 65351; 42; 12288; 65324; 65349; 65357; 65359; 65358; 43; 12288; 12524; 12514; 12531; 19968; 32094; 12426]%N : str), ([21335; 12450; 12523; 12503; 12473; 12398; 22825; 28982; 27700; 45; 83; 112; 97; 114; 107; 105; 110; 103; 42; 76; 101; 109; 111; 110; 43; 12524; 12514; 12531; 19968; 32094; 12426]%N : str));
  (([12354; 12399; 12443; 12428; 12427; 12288; 12450; 12495; 12444; 12507; 12486; 12523]%N : str), ([12354; 12400; 12428; 12427; 12450; 12497; 12507; 12486; 12523]%N : str))].
Example neologdn_tests : passes as_stored chanoma_neologdn neologdn_plain neologdn_positions.
Proof. vm_compute. reflexivity. Qed.
Example neologdn_tests_scrambled : passes scrambled chanoma_neologdn neologdn_plain neologdn_positions.
Proof. vm_compute. reflexivity. Qed.

(** ** /repo/bindings/python3/tests/test_neologdn.py *)
Definition no_world : world :=
  World (fun _ => false) (fun _ => None) (fun _ => None) (fun _ => None) EnvAbsent None None.

Example py_neologdn : passes scrambled (fun o => py_chanoma_new o no_world None true false false None) [
  (([65296; 65297; 65298; 65299; 65300; 65301; 65302; 65303; 65304; 65305]%N : str), ([48; 49; 50; 51; 52; 53; 54; 55; 56; 57]%N : str));
  (([65313; 65314; 65315; 65316; 65317; 65318; 65319; 65320; 65321; 65322; 65323; 65324; 65325; 65326; 65327; 65328; 65329; 65330; 65331; 65332; 65333; 65334; 65335; 65336; 65337; 65338]%N : str), ([65; 66; 67; 68; 69; 70; 71; 72; 73; 74; 75; 76; 77; 78; 79; 80; 81; 82; 83; 84; 85; 86; 87; 88; 89; 90]%N : str));
  (([65345; 65346; 65347; 65348; 65349; 65350; 65351; 65352; 65353; 65354; 65355; 65356; 65357; 65358; 65359; 65360; 65361; 65362; 65363; 65364; 65365; 65366; 65367; 65368; 65369; 65370]%N : str), ([97; 98; 99; 100; 101; 102; 103; 104; 105; 106; 107; 108; 109; 110; 111; 112; 113; 114; 115; 116; 117; 118; 119; 120; 121; 122]%N : str));
  (([65281; 8221; 65283; 65284; 65285; 65286; 8217; 65288; 65289; 65290; 65291; 65292; 65293; 65294; 65295; 65306; 65307; 65308; 65310; 65311; 65312; 65339; 65509; 65341; 65342; 65343; 65344; 65371; 65372; 65373]%N : str), ([33; 34; 35; 36; 37; 38; 39; 40; 41; 42; 43; 44; 45; 46; 47; 58; 59; 60; 62; 63; 64; 91; 165; 93; 94; 95; 96; 123; 124; 125]%N : str));
  (([65309; 12290; 12289; 12539; 12300; 12301]%N : str), ([65309; 12290; 12289; 12539; 12300; 12301]%N : str));
  (([65418; 65437; 65398; 65400]%N : str), ([12495; 12531; 12459; 12463]%N : str));
  (([111; 8331; 111]%N : str), ([111; 45; 111]%N : str));
  (([109; 97; 106; 105; 107; 97; 9473]%N : str), ([109; 97; 106; 105; 107; 97; 12540]%N : str));
  (([12431; 12336; 12356]%N : str), ([12431; 12356]%N : str));
  (([12473; 12540; 12497; 12540; 12540; 12540; 12540]%N : str), ([12473; 12540; 12497; 12540]%N : str));
  (([33; 35]%N : str), ([33; 35]%N : str));
  (([12476; 12531; 12459; 12463; 12288; 12473; 12506; 12540; 12473]%N : str), ([12476; 12531; 12459; 12463; 12473; 12506; 12540; 12473]%N : str));
  (([12362; 32; 32; 32; 32; 32; 32; 32; 32; 32; 32; 32; 32; 32; 12362]%N : str), ([12362; 12362]%N : str));
  (([32; 32; 32; 32; 32; 32; 12362; 12362]%N : str), ([12362; 12362]%N : str));
  (([12362; 12362; 32; 32; 32; 32; 32; 32]%N : str), ([12362; 12362]%N : str));
  (([26908; 32034; 32; 12456; 12531; 12472; 12531; 32; 33258; 20316; 32; 20837; 38272; 32; 12434; 32; 36023; 12356; 32; 12414; 12375; 12383; 33; 33; 33]%N : str), ([26908; 32034; 12456; 12531; 12472; 12531; 33258; 20316; 20837; 38272; 12434; 36023; 12356; 12414; 12375; 12383; 33; 33; 33]%N : str));
  (([12450; 12523; 12468; 12522; 12474; 12512; 32; 67]%N : str), ([12450; 12523; 12468; 12522; 12474; 12512; 67]%N : str));
  (([12288; 12288; 12288; 65328; 65330; 65325; 65324; 12288; 12288; 21103; 12288; 35501; 12288; 26412; 12288; 12288; 12288]%N : str), ([80; 82; 77; 76; 21103; 35501; 26412]%N : str));
  (([67; 111; 100; 105; 110; 103; 32; 116; 104; 101; 32; 77; 97; 116; 114; 105; 120]%N : str), ([67; 111; 100; 105; 110; 103; 32; 116; 104; 101; 32; 77; 97; 116; 114; 105; 120]%N : str));
  (([21335; 12450; 12523; 12503; 12473; 12398; 12288; 22825; 28982; 27700; 12288; 65331; 65360; 65345; 65362; 65355; 65353; 65358; 65351; 12288; 65324; 65349; 65357; 65359; 65358; 12288; 12524; 12514; 12531; 19968; 32094; 12426]%N : str), ([21335; 12450; 12523; 12503; 12473; 12398; 22825; 28982; 27700; 83; 112; 97; 114; 107; 105; 110; 103; 32; 76; 101; 109; 111; 110; 12524; 12514; 12531; 19968; 32094; 12426]%N : str));
  (([21335; 12450; 12523; 12503; 12473; 12398; 12288; 22825; 28982; 27700; 45; 12288; 65331; 65360; 65345; 65362; 65355; 65353; 65358; 65351; 42; 12288; 65324; 65349; 65357; 65359; 65358; 43; 12288; 12524; 12514; 12531; 19968; 32094; 12426]%N : str), ([21335; 12450; 12523; 12503; 12473; 12398; 22825; 28982; 27700; 45; 83; 112; 97; 114; 107; 105; 110; 103; 42; 76; 101; 109; 111; 110; 43; 12524; 12514; 12531; 19968; 32094; 12426]%N : str))] [].
Proof. vm_compute. reflexivity. Qed.

(** ** Doc tests of /repo/src/chanoma.rs:119-120, 138-139 *)
Example doc_normalize : passes scrambled chanoma_preset [(([65409; 65388; 65417; 65423]%N : str), ([12481; 12515; 12494; 12510]%N : str))] [(([65409; 65388; 65417; 65423]%N : str), ([12481; 12515; 12494; 12510]%N : str))].
Proof. vm_compute. reflexivity. Qed.

(** ** /repo/tests/chanoma.rs *)
Example can_not_normalized :
  (c <- chanoma_from_table (table_add as_stored table_new (synth [Item (lit "z") (lit "Z")])) ;; normalize false as_stored c (lit "abc")) = Ok (lit "abc").
Proof. reflexivity. Qed.

(** ** /repo/src/corr.rs:221-325 *)
Definition CorrA : corr := synth [Item (lit "a") (lit "A")].
Definition CorrB : corr := synth [Item (lit "b") (lit "B")].
Definition CorrAb : corr := synth [Item (lit "a") (lit "A"); Item (lit "b") (lit "B")].
Example corr_add_tests : forall o, o = as_stored \/ o = scrambled ->
  corr_add o CorrA CorrB = CorrAb o /\ corr_add o CorrAb CorrB = CorrAb o.
Proof. intros o [->| ->]; split; reflexivity. Qed.
Example corr_sub_tests : forall o, corr_sub o CorrA CorrB = CorrA o /\ corr_sub o CorrAb CorrB = CorrA o.
Proof. split; reflexivity. Qed.
Example corr_add_assign_tests : forall o, o = as_stored \/ o = scrambled ->
  corr_add_assign o (CorrA o) CorrB = CorrAb o /\ corr_add_assign o (CorrAb o) CorrB = CorrAb o.
Proof. intros o [->| ->]; split; reflexivity. Qed.
Example corr_sub_assign_tests : forall o, corr_sub_assign o (CorrA o) CorrB = CorrA o /\ corr_sub_assign o (CorrAb o) CorrB = CorrA o.
Proof. split; reflexivity. Qed.

(** ** /repo/src/file.rs:126-231 *)
Definition test_items : list item :=
  [Item (lit "a") (lit "A"); Item (lit "b") (lit "B"); Item (lit "c") (lit "C"); Item (lit "sea") (lit "C"); Item (lit "see") (lit "C")].
(** /repo/tests/resources/test.csv *)
Definition test_csv : list csv_record :=
  [CsvFields [([102; 114; 111; 109]%N : str); ([116; 111]%N : str)]; CsvFields [([97]%N : str); ([65]%N : str)]; CsvFields [([98]%N : str); ([66]%N : str)]; CsvFields [([99]%N : str); ([115; 101; 97]%N : str); ([115; 101; 101]%N : str); ([67]%N : str)]].
(** /repo/tests/resources/test.yaml *)
Definition test_yaml : yval := YMap [
  (YStr (lit "items"), YMap [(YStr ([65]%N : str), YStr ([97]%N : str)); (YStr ([66]%N : str), YStr ([98]%N : str)); (YStr ([67]%N : str), YSeq [YStr ([99]%N : str); YStr ([115; 101; 97]%N : str); YStr ([115; 101; 101]%N : str)])]);
  (YStr (lit "modifiers"), YMap [
    (YStr (lit "character_converter"), YMap [(YStr ([68]%N : str), YStr ([100]%N : str)); (YStr ([69]%N : str), YStr ([101]%N : str))]);
    (YStr (lit "character_eliminator"), YSeq [YStr ([126]%N : str); YStr ([8764]%N : str); YStr ([8766]%N : str); YStr ([12316]%N : str); YStr ([12336]%N : str); YStr ([65374]%N : str)]);
    (YStr (lit "consecutive_character_reducer"), YStr ([12540]%N : str));
    (YStr (lit "dotted_space_eliminator"), YNull);
    (YStr (lit "trim"), YNull);
    (YStr (lit "ligature_translator"), YMap [(YStr ([12495; 12444]%N : str), YStr ([12497]%N : str))]);
    (YStr (lit "neologdn"), YNull)])].
Definition resources : path := lit "/tests/resources".
Definition test_world : world :=
  World (fun p => str_eqb p (lit "/tests/resources/test.csv") || str_eqb p (lit "/tests/resources/test.yaml"))
    (fun p => if str_eqb p (lit "/tests/resources/test.csv") then Some test_csv else None)
    (fun p => if str_eqb p (lit "/tests/resources/test.yaml") then Some (Some test_yaml) else None) (fun p => Some p)
    EnvAbsent (Some (lit "/home/u")) (Some (lit "/work")).
Definition items_of (x : outcome table) : outcome (list item) := t <- x ;; Ok (table_items t).
Example csv_success : items_of (table_from_csv_path test_world (push resources (lit "test.csv"))) = Ok test_items.
Proof. vm_compute. reflexivity. Qed.
Example csv_fail : table_from_csv_path test_world (lit "./nonexistent.file") = Err CsvFileLoadError.
Proof. reflexivity. Qed.
Example csv_writer : to_csv_records as_stored (synth test_items) =
  [[lit "a"; lit "A"]; [lit "b"; lit "B"]; [lit "c"; lit "sea"; lit "see"; lit "C"]].
Proof. reflexivity. Qed.
Example yaml_success : items_of (table_from_yaml_path test_world (push resources (lit "test.yaml"))) = Ok test_items.
Proof. vm_compute. reflexivity. Qed.
Example yaml_fail : table_from_yaml_path test_world (lit "./nonexistent.file") = Err IoError.
Proof. reflexivity. Qed.
Example yaml_modifiers_success : forall o, o = as_stored \/ o = scrambled ->
  modifiers_from_yaml_path o test_world (push resources (lit "test.yaml")) =
  (n <- neologdn_new o ;; Ok [MConv [(68, 100); (69, 101)]%N; MElim (elim_from_chars ([126; 8764; 8766; 12316; 12336; 65374]%N : str)); MRed 12540%N; MDot; MTrim;
     MLig [(([12495; 12444]%N : str), ([12497]%N : str))]; MNeo n]).
Proof. intros o [->| ->]; vm_compute; reflexivity. Qed.

(** ** /repo/src/configuration.rs:164-296 *)
Definition with_env (e : env_value) : world :=
  World (w_is_file test_world) (w_csv test_world) (w_yaml test_world) (w_canonicalize test_world) e (w_home test_world) (w_cwd test_world).
Example env_set : file_path_from_env (with_env (EnvUnicode (lit "./test"))) = Some (lit "./test").
Proof. reflexivity. Qed.
Example env_unset : file_path_from_env (with_env EnvAbsent) = None.
Proof. reflexivity. Qed.
(** The ignored tests too: *)
Example rc_nonexistent : valid_file_path test_world (lit "/--------a--------") = Err (RcFileLoadError (lit "/--------a--------")).
Proof. vm_compute. reflexivity. Qed.
Example rc_existent : valid_file_path test_world (push resources (lit "test.csv")) = Ok [push resources (lit "test.csv")].
Proof. vm_compute. reflexivity. Qed.
Example auto_load_dirs_works : auto_load_dirs test_world = [lit "/home/u/.config/chanoma"; lit "/home/u"; lit "/work"].
Proof. vm_compute. reflexivity. Qed.
Example auto_load_paths_works : auto_load_paths_from_dir (lit "./") =
  [lit "./chanomarc.csv"; lit "./chanomarc.yaml"; lit "./.chanomarc.csv"; lit "./.chanomarc.yaml"].
Proof. vm_compute. reflexivity. Qed.
Definition dummy_paths (dir : path) : list path := [push dir (lit "test.csv")].
Example exists_nonexistent : exists_file_paths test_world [lit "/--------a--------/"] dummy_paths = [].
Proof. vm_compute. reflexivity. Qed.
Example exists_no_target : exists_file_paths test_world [lit "/src"] dummy_paths = [].
Proof. vm_compute. reflexivity. Qed.
Example exists_target : exists_file_paths test_world [resources] dummy_paths = [push resources (lit "test.csv")].
Proof. vm_compute. reflexivity. Qed.

(** ** /repo/README.md: [chanoma -p ...] *)
Example readme_cli : cli_main scrambled test_world (Opts (Some ([65418; 65437; 65398; 65400; 65398; 65413; 12399; 20840; 35282; 12459; 12479; 12459; 12490; 12395; 22793; 25563; 12373; 12428; 12414; 12377]%N : str)) false true false) None = Ok (Printed ([12495; 12531; 12459; 12463; 12459; 12490; 12399; 20840; 35282; 12459; 12479; 12459; 12490; 12395; 22793; 25563; 12373; 12428; 12414; 12377]%N : str)).
Proof. vm_compute. reflexivity. Qed.

(** ** /repo/bindings/python3/tests/test_chanoma.py, test_table.py *)
Definition py_csv : list csv_record := [CsvFields [([102; 114; 111; 109]%N : str); ([116; 111]%N : str)]; CsvFields [([65313]%N : str); ([65]%N : str)]; CsvFields [([65314]%N : str); ([66]%N : str)]; CsvFields [([65315]%N : str); ([67]%N : str)]; CsvFields [([65316]%N : str); ([68]%N : str)]; CsvFields [([65317]%N : str); ([69]%N : str)]].
Definition py_yaml : yval := YMap [(YStr (lit "items"), YMap [(YStr ([65]%N : str), YStr ([65313]%N : str)); (YStr ([66]%N : str), YStr ([65314]%N : str)); (YStr ([67]%N : str), YStr ([65315]%N : str)); (YStr ([68]%N : str), YStr ([65316]%N : str)); (YStr ([69]%N : str), YStr ([65317]%N : str))])].
Definition wide : str := ([65313; 65314; 65315; 65316; 65317]%N : str).
Definition narrow : str := lit "ABCDE".
Definition py_world (e : env_value) (cwd_file : bool) : world :=
  World (fun p => str_eqb p (lit "./tests/test.csv") || str_eqb p (lit "./tests/test.yaml") || (cwd_file && str_eqb p (lit "/work/.chanomarc.csv")))
    (fun p => if str_eqb p (lit "./tests/test.csv") || (cwd_file && str_eqb p (lit "/work/.chanomarc.csv")) then Some py_csv else None)
    (fun p => if str_eqb p (lit "./tests/test.yaml") then Some (Some py_yaml) else None) (fun p => Some p)
    e (Some (lit "/home/u")) (Some (lit "/work")).
Definition py_run (w : world) (t : outcome (option table)) (rc : bool) (s : str) : outcome str :=
  t <- t ;; c <- py_chanoma_new scrambled w t false false rc None ;; py_normalize scrambled c s.
Definition some (x : outcome table) : outcome (option table) := t <- x ;; Ok (Some t).
Example py_empty_chanoma : py_run (py_world EnvAbsent false) (Ok None) false wide = Ok wide.
Proof. vm_compute. reflexivity. Qed.
Example py_env_rc : py_run (py_world (EnvUnicode (lit "./tests/test.csv")) false) (Ok None) true wide = Ok narrow.
Proof. vm_compute. reflexivity. Qed.
Example py_rc : py_run (py_world EnvAbsent true) (Ok None) true wide = Ok narrow.
Proof. vm_compute. reflexivity. Qed.
Example py_empty_table : py_run (py_world EnvAbsent false) (some (py_table_new scrambled (py_world EnvAbsent false) false None None)) false wide = Ok wide.
Proof. vm_compute. reflexivity. Qed.
Example py_preset_table : py_run (py_world EnvAbsent false) (some (py_table_new scrambled (py_world EnvAbsent false) true None None)) false wide = Ok narrow.
Proof. vm_compute. reflexivity. Qed.
Example py_csv_table :
  py_run (py_world EnvAbsent false) (some (py_table_new scrambled (py_world EnvAbsent false) false (Some (lit "./tests/test.csv")) None)) false wide = Ok narrow.
Proof. vm_compute. reflexivity. Qed.
Example py_yaml_table :
  py_run (py_world EnvAbsent false) (some (py_table_new scrambled (py_world EnvAbsent false) false None (Some (lit "./tests/test.yaml")))) false wide = Ok narrow.
Proof. vm_compute. reflexivity. Qed.
Example py_add_alphabets :
  py_run (py_world EnvAbsent false) (t <- py_table_new scrambled (py_world EnvAbsent false) false None None ;; Ok (Some (py_table_add scrambled (ALPHABETS scrambled) t))) false wide = Ok narrow.
Proof. vm_compute. reflexivity. Qed.
Example py_add_correspondence :
  py_run (py_world EnvAbsent false) (t <- py_table_new scrambled (py_world EnvAbsent false) false None None ;;
    Ok (Some (py_table_add scrambled [Item ([65313]%N : str) ([65]%N : str); Item ([65314]%N : str) ([66]%N : str); Item ([65315]%N : str) ([67]%N : str); Item ([65316]%N : str) ([68]%N : str); Item ([65317]%N : str) ([69]%N : str)] t))) false wide = Ok narrow.
Proof. vm_compute. reflexivity. Qed.
