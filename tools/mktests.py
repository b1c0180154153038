#!/usr/bin/env python3
"""Translate the assertions of the repository's own tests into Coq examples about the model."""
import re
R='/repo/'
def S(s):
    return '([' + '; '.join(str(ord(c)) for c in s) + ']%N : str)'
def unesc(s):
    return s.replace('\\"','"').replace("\\'","'")
out=[]
w=out.append
w('''(** The assertions of the repository's own tests, replayed on the model (generated by tools/mktests.py
    from /repo/tests, the doc tests and unit tests of /repo/src, /repo/README.md and
    /repo/bindings/python3/tests).  They show that the model computes what the program is known to compute. *)
From Coq Require Import String.
From Verif Require Import Base StrOps Corr CharsetData Table Charset Position Converter Eliminator Ligature Neologdn ModifierKind
  PathModel Yaml File ChanomaModel Configuration Cli Python.
Local Open Scope string_scope.
Local Open Scope list_scope.

(** Two iteration orders: as stored, and a scrambled one. *)
Definition as_stored : sched := fun _ => [].
Definition scrambled : sched := fun p => [7 + length p; 3; 11; 5; 2; 1; 4; 1; 1; 3].
(** The Chanoma made by [mk] turns the first component of each pair into the second. *)
Definition passes (o : sched) (mk : sched -> outcome chanoma) (plain with_positions : list (str * str)) : Prop :=
  (c <- mk o ;; Ok (map (fun st => normalize false o c (fst st)) plain,
                    map (fun st => rs <- normalize_with_positions o c (fst st) ;; records_text rs) with_positions)) =
  Ok (map (fun st => Ok (snd st)) plain, map (fun st => Ok (snd st)) with_positions).
''')
# tests/neologdn.rs
src=open(R+'tests/neologdn.rs').read()
n=0
pat=re.compile(r'assert_eq!\(\s*chanoma\s*\.\s*(normalize|normalize_with_positions)\(\s*"((?:[^"\\]|\\.)*)"\s*\)\s*(?:\.text\(\))?\s*,\s*"((?:[^"\\]|\\.)*)"\s*,?\s*\)',re.S)
fn=re.compile(r'fn (\w+)\(\)')
marks=[(m.start(),m.group(1)) for m in fn.finditer(src)]
total=src.count('assert_eq!')
byfn={}
for m in pat.finditer(src):
    n+=1
    name=[f for p,f in marks if p<m.start()][-1]
    byfn.setdefault(name,[]).append((m.group(1),unesc(m.group(2)),unesc(m.group(3))))
assert n==total,(n,total)
w('(** ** /repo/tests/neologdn.rs: all %d assertions *)'%n)
plain=[(a,b) for l in byfn.values() for k,a,b in l if k=='normalize']
posn=[(a,b) for l in byfn.values() for k,a,b in l if k!='normalize']
L=lambda l:'[\n  '+';\n  '.join('(%s, %s)'%(S(a),S(b)) for a,b in l)+']'
w('Definition neologdn_plain : list (str * str) := %s.'%L(plain))
w('Definition neologdn_positions : list (str * str) := %s.'%L(posn))
w("""Example neologdn_tests : passes as_stored chanoma_neologdn neologdn_plain neologdn_positions.
Proof. vm_compute. reflexivity. Qed.
Example neologdn_tests_scrambled : passes scrambled chanoma_neologdn neologdn_plain neologdn_positions.
Proof. vm_compute. reflexivity. Qed.""")
# python neologdn
src=open(R+'bindings/python3/tests/test_neologdn.py').read()
l=re.findall(r'c\.normalize\("((?:[^"\\]|\\.)*)"\), "((?:[^"\\]|\\.)*)"\)',src)
assert len(l)==src.count('assertEqual')
w('\n(** ** /repo/bindings/python3/tests/test_neologdn.py *)')
w('''Definition no_world : world :=
  World (fun _ => false) (fun _ => None) (fun _ => None) (fun _ => None) EnvAbsent None None.
''')
w('Example py_neologdn : passes scrambled (fun o => py_chanoma_new o no_world None true false false None) %s [].\nProof. vm_compute. reflexivity. Qed.'%L([(unesc(a),unesc(b)) for a,b in l]))
w('\n(** ** Doc tests of /repo/src/chanoma.rs:119-120, 138-139 *)')
w('Example doc_normalize : passes scrambled chanoma_preset [(%s, %s)] [(%s, %s)].\nProof. vm_compute. reflexivity. Qed.'%((S("ﾁｬﾉﾏ"),S("チャノマ"))*2))
w('''
(** ** /repo/tests/chanoma.rs *)
Example can_not_normalized :
  (c <- chanoma_from_table (table_add as_stored table_new (synth [Item (lit "z") (lit "Z")])) ;; normalize false as_stored c (lit "abc")) = Ok (lit "abc").
Proof. reflexivity. Qed.

(** ** /repo/src/corr.rs:221-325 *)
Definition CorrA : corr := synth [Item (lit "a") (lit "A")].
Definition CorrB : corr := synth [Item (lit "b") (lit "B")].
Definition CorrAb : corr := synth [Item (lit "a") (lit "A"); Item (lit "b") (lit "B")].
Example corr_add_tests : forall o, o = as_stored \\/ o = scrambled ->
  corr_add o CorrA CorrB = CorrAb o /\\ corr_add o CorrAb CorrB = CorrAb o.
Proof. intros o [->| ->]; split; reflexivity. Qed.
Example corr_sub_tests : forall o, corr_sub o CorrA CorrB = CorrA o /\\ corr_sub o CorrAb CorrB = CorrA o.
Proof. split; reflexivity. Qed.
Example corr_add_assign_tests : forall o, o = as_stored \\/ o = scrambled ->
  corr_add_assign o (CorrA o) CorrB = CorrAb o /\\ corr_add_assign o (CorrAb o) CorrB = CorrAb o.
Proof. intros o [->| ->]; split; reflexivity. Qed.
Example corr_sub_assign_tests : forall o, corr_sub_assign o (CorrA o) CorrB = CorrA o /\\ corr_sub_assign o (CorrAb o) CorrB = CorrA o.
Proof. split; reflexivity. Qed.

(** ** /repo/src/file.rs:126-231 *)
Definition test_items : list item :=
  [Item (lit "a") (lit "A"); Item (lit "b") (lit "B"); Item (lit "c") (lit "C"); Item (lit "sea") (lit "C"); Item (lit "see") (lit "C")].''')
# test.csv
rows=[r.split(',') for r in open(R+'tests/resources/test.csv').read().strip().split('\n')]
w('(** /repo/tests/resources/test.csv *)\nDefinition test_csv : list csv_record :=\n  [%s].'%'; '.join('CsvFields [%s]'%'; '.join(S(f) for f in r) for r in rows))
# test.yaml hand-written value, checked against the file text
ytext=open(R+'tests/resources/test.yaml').read()
for needle in ['A: a','B: b','- c','- sea','- see','D: d','E: e','["~", ∼, ∾, 〜, 〰, ～]','consecutive_character_reducer: ー','ハ゜: パ']:
    assert needle in ytext, needle
assert ytext.index('character_converter')<ytext.index('character_eliminator')<ytext.index('consecutive')<ytext.index('dotted')<ytext.index('trim')<ytext.index('ligature')<ytext.index('neologdn')
Y=lambda s:'YStr '+S(s)
w('''(** /repo/tests/resources/test.yaml *)
Definition test_yaml : yval := YMap [
  (YStr (lit "items"), YMap [(%s, %s); (%s, %s); (%s, YSeq [%s; %s; %s])]);
  (YStr (lit "modifiers"), YMap [
    (YStr (lit "character_converter"), YMap [(%s, %s); (%s, %s)]);
    (YStr (lit "character_eliminator"), YSeq [%s]);
    (YStr (lit "consecutive_character_reducer"), %s);
    (YStr (lit "dotted_space_eliminator"), YNull);
    (YStr (lit "trim"), YNull);
    (YStr (lit "ligature_translator"), YMap [(%s, %s)]);
    (YStr (lit "neologdn"), YNull)])].'''%tuple([Y(x) for x in ['A','a','B','b','C','c','sea','see','D','d','E','e']]+['; '.join(Y(c) for c in '~∼∾〜〰～')]+[Y(x) for x in ['ー','ハ゜','パ']]))
w('''Definition resources : path := lit "/tests/resources".
Definition test_world : world :=
  World (fun p => str_eqb p (lit "/tests/resources/test.csv") || str_eqb p (lit "/tests/resources/test.yaml"))
    (fun p => if str_eqb p (lit "/tests/resources/test.csv") then Some test_csv else None)
    (fun p => if str_eqb p (lit "/tests/resources/test.yaml") then Some (Some test_yaml) else None) (fun p => Some p)
    EnvAbsent (Some (lit "/home/u")) (Some (lit "/work")).
Definition items_of (x : outcome table) : outcome (list item) := t <- x ;; Ok (table_items t).
Example csv_success : items_of (table_from_csv_path test_world (push resources (lit "test.csv"))) = Ok test_items.
Proof. vm_compute. reflexivity. Qed.
Example csv_fail : table_from_csv_path test_world (lit "./nonexistent.file") = Err CsvFileLoadError.
Proof. reflexivity. Qed.
Example csv_writer : to_csv_records as_stored (synth test_items) =
  [[lit "a"; lit "A"]; [lit "b"; lit "B"]; [lit "c"; lit "sea"; lit "see"; lit "C"]].
Proof. reflexivity. Qed.
Example yaml_success : items_of (table_from_yaml_path test_world (push resources (lit "test.yaml"))) = Ok test_items.
Proof. vm_compute. reflexivity. Qed.
Example yaml_fail : table_from_yaml_path test_world (lit "./nonexistent.file") = Err IoError.
Proof. reflexivity. Qed.''')
w('''Example yaml_modifiers_success : forall o, o = as_stored \\/ o = scrambled ->
  modifiers_from_yaml_path o test_world (push resources (lit "test.yaml")) =
  (n <- neologdn_new o ;; Ok [MConv [(%d, %d); (%d, %d)]%%N; MElim (elim_from_chars %s); MRed %d%%N; MDot; MTrim;
     MLig [(%s, %s)]; MNeo n]).
Proof. intros o [->| ->]; vm_compute; reflexivity. Qed.'''%(ord('D'),ord('d'),ord('E'),ord('e'),S('~∼∾〜〰～'),ord('ー'),S('ハ゜'),S('パ')))
w('''
(** ** /repo/src/configuration.rs:164-296 *)
Definition with_env (e : env_value) : world :=
  World (w_is_file test_world) (w_csv test_world) (w_yaml test_world) (w_canonicalize test_world) e (w_home test_world) (w_cwd test_world).
Example env_set : file_path_from_env (with_env (EnvUnicode (lit "./test"))) = Some (lit "./test").
Proof. reflexivity. Qed.
Example env_unset : file_path_from_env (with_env EnvAbsent) = None.
Proof. reflexivity. Qed.
(** The ignored tests too: *)
Example rc_nonexistent : valid_file_path test_world (lit "/--------a--------") = Err (RcFileLoadError (lit "/--------a--------")).
Proof. vm_compute. reflexivity. Qed.
Example rc_existent : valid_file_path test_world (push resources (lit "test.csv")) = Ok [push resources (lit "test.csv")].
Proof. vm_compute. reflexivity. Qed.
Example auto_load_dirs_works : auto_load_dirs test_world = [lit "/home/u/.config/chanoma"; lit "/home/u"; lit "/work"].
Proof. vm_compute. reflexivity. Qed.
Example auto_load_paths_works : auto_load_paths_from_dir (lit "./") =
  [lit "./chanomarc.csv"; lit "./chanomarc.yaml"; lit "./.chanomarc.csv"; lit "./.chanomarc.yaml"].
Proof. vm_compute. reflexivity. Qed.
Definition dummy_paths (dir : path) : list path := [push dir (lit "test.csv")].
Example exists_nonexistent : exists_file_paths test_world [lit "/--------a--------/"] dummy_paths = [].
Proof. vm_compute. reflexivity. Qed.
Example exists_no_target : exists_file_paths test_world [lit "/src"] dummy_paths = [].
Proof. vm_compute. reflexivity. Qed.
Example exists_target : exists_file_paths test_world [resources] dummy_paths = [push resources (lit "test.csv")].
Proof. vm_compute. reflexivity. Qed.
''')
w('''(** ** /repo/README.md: [chanoma -p ...] *)
Example readme_cli : cli_main scrambled test_world (Opts (Some %s) false true false) None = Ok (Printed %s).
Proof. vm_compute. reflexivity. Qed.
'''%(S("ﾊﾝｶｸｶﾅは全角カタカナに変換されます"),S("ハンカクカナは全角カタカナに変換されます")))
# python tests
FW="ＡＢＣＤＥ"; A="ABCDE"
prow=[r.split(',') for r in open(R+'bindings/python3/tests/test.csv').read().strip().split('\n')]
assert prow==[['from','to']]+[[a,b] for a,b in zip(FW,A)]
w('(** ** /repo/bindings/python3/tests/test_chanoma.py, test_table.py *)')
w('Definition py_csv : list csv_record := [%s].'%'; '.join('CsvFields [%s]'%'; '.join(S(f) for f in r) for r in prow))
w('Definition py_yaml : yval := YMap [(YStr (lit "items"), YMap [%s])].'%'; '.join('(%s, %s)'%(Y(b),Y(a)) for a,b in zip(FW,A)))
w('Definition wide : str := %s.\nDefinition narrow : str := lit "ABCDE".'%S(FW))
w('''Definition py_world (e : env_value) (cwd_file : bool) : world :=
  World (fun p => str_eqb p (lit "./tests/test.csv") || str_eqb p (lit "./tests/test.yaml") || (cwd_file && str_eqb p (lit "/work/.chanomarc.csv")))
    (fun p => if str_eqb p (lit "./tests/test.csv") || (cwd_file && str_eqb p (lit "/work/.chanomarc.csv")) then Some py_csv else None)
    (fun p => if str_eqb p (lit "./tests/test.yaml") then Some (Some py_yaml) else None) (fun p => Some p)
    e (Some (lit "/home/u")) (Some (lit "/work")).
Definition py_run (w : world) (t : outcome (option table)) (rc : bool) (s : str) : outcome str :=
  t <- t ;; c <- py_chanoma_new scrambled w t false false rc None ;; py_normalize scrambled c s.
Definition some (x : outcome table) : outcome (option table) := t <- x ;; Ok (Some t).
Example py_empty_chanoma : py_run (py_world EnvAbsent false) (Ok None) false wide = Ok wide.
Proof. vm_compute. reflexivity. Qed.
Example py_env_rc : py_run (py_world (EnvUnicode (lit "./tests/test.csv")) false) (Ok None) true wide = Ok narrow.
Proof. vm_compute. reflexivity. Qed.
Example py_rc : py_run (py_world EnvAbsent true) (Ok None) true wide = Ok narrow.
Proof. vm_compute. reflexivity. Qed.
Example py_empty_table : py_run (py_world EnvAbsent false) (some (py_table_new scrambled (py_world EnvAbsent false) false None None)) false wide = Ok wide.
Proof. vm_compute. reflexivity. Qed.
Example py_preset_table : py_run (py_world EnvAbsent false) (some (py_table_new scrambled (py_world EnvAbsent false) true None None)) false wide = Ok narrow.
Proof. vm_compute. reflexivity. Qed.
Example py_csv_table :
  py_run (py_world EnvAbsent false) (some (py_table_new scrambled (py_world EnvAbsent false) false (Some (lit "./tests/test.csv")) None)) false wide = Ok narrow.
Proof. vm_compute. reflexivity. Qed.
Example py_yaml_table :
  py_run (py_world EnvAbsent false) (some (py_table_new scrambled (py_world EnvAbsent false) false None (Some (lit "./tests/test.yaml")))) false wide = Ok narrow.
Proof. vm_compute. reflexivity. Qed.
Example py_add_alphabets :
  py_run (py_world EnvAbsent false) (t <- py_table_new scrambled (py_world EnvAbsent false) false None None ;; Ok (Some (py_table_add scrambled (ALPHABETS scrambled) t))) false wide = Ok narrow.
Proof. vm_compute. reflexivity. Qed.''')
w('''Example py_add_correspondence :
  py_run (py_world EnvAbsent false) (t <- py_table_new scrambled (py_world EnvAbsent false) false None None ;;
    Ok (Some (py_table_add scrambled [%s] t))) false wide = Ok narrow.
Proof. vm_compute. reflexivity. Qed.'''%'; '.join('Item %s %s'%(S(a),S(b)) for a,b in zip(FW,A)))
open('/verif/rocq/theories/RepoTests.v','w').write('\n'.join(out)+'\n')
