# Prints rocq/theories/WidthSpec.v: the <wide> and <narrow> mappings of the Unicode character database.
import unicodedata as u
w = []
for c in range(0x110000):
    d = u.decomposition(chr(c)).split()
    if d and d[0] in ('<wide>', '<narrow>'):
        assert len(d) == 2
        w.append((c, int(d[1], 16)))
rows = []
for i in range(0, len(w), 6):
    rows.append('   ' + '; '.join('(0x%04X, 0x%04X)' % p for p in w[i:i + 6]))
print('''(** Width variants of characters, as the Unicode character database lists them: the decomposition
    mappings marked <wide> or <narrow> (field 5 of UnicodeData.txt, version %s).
    Written by tools/mkwidth.py from that database; nothing here is taken from /repo. *)
From Coq Require Import List NArith.
From Verif Require Import Base.
Import ListNotations.

(** [(c, t)]: [c] is the full-width or half-width form of [t]. *)
Definition width_pairs : list (char * char) :=
  [%s]%%N.

(** A function that gives every character a decomposition, and the same one to a character and to its
    width variant.  The compatibility decomposition of Unicode (the first step of NFKD and NFKC) is one. *)
Definition width_blind (D : char -> str) : Prop := forall c t, In (c, t) width_pairs -> D c = D t.

(** Replacing each width variant by the character it is a variant of. *)
Definition narrowed (c : char) : char :=
  match find (fun p => N.eqb (fst p) c) width_pairs with Some p => snd p | None => c end.

(** The three characters the preset changes though they are width variants of nothing, and what it makes
    of them: the right double and single quotation marks and the wave dash. *)
Definition not_width : list (char * char) := [(0x201D, 0x22); (0x2019, 0x27); (0x301C, 0x7E)]%%N.

(** The width variants the preset leaves alone: full-width quotation mark, apostrophe, tilde and white
    parentheses; half-width prolonged sound mark, voiced and semi-voiced sound marks; half-width Hangul;
    the full-width signs other than the yen sign; half-width lines, arrows and shapes. *)
Definition left_alone (c : char) : Prop :=
  In c [0xFF02; 0xFF07; 0xFF5E; 0xFF5F; 0xFF60; 0xFF70; 0xFF9E; 0xFF9F]%%N \\/
  (0xFFA0 <= c <= 0xFFDC)%%N \\/ ((0xFFE0 <= c <= 0xFFEE)%%N /\\ c <> 0xFFE5%%N).
''' % (u.unidata_version, ';\n'.join(rows).strip()), end='')
