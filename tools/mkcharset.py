#!/usr/bin/env python3
"""Generate rocq/theories/CharsetData.v from /repo/src/characters_set/*.rs and the constant tables of
/repo/src/modifier/neologdn.rs.  Usage: python3 tools/mkcharset.py > rocq/theories/CharsetData.v"""
import re, sys

def unesc(s):
    out, i = [], 0
    while i < len(s):
        if s[i] == '\\':
            if s[i+1] == 'u':
                j = s.index('}', i)
                out.append(int(s[i+3:j], 16)); i = j + 1
            else:
                out.append(ord({'\\': '\\', '"': '"', 'n': '\n', 't': '\t'}[s[i+1]])); i += 2
        else:
            out.append(ord(s[i])); i += 1
    return out

def lst(cs): return '[' + '; '.join('0x%X' % c for c in cs) + ']'
STR = r'"((?:[^"\\]|\\.)*)"'

def strip_comment(line):
    # remove // comments outside string literals
    return re.sub(r'^((?:[^"/]|"(?:[^"\\]|\\.)*"|/(?!/))*)//.*$', r'\1', line)

def module(fname, prefix, chain_name):
    path = '/repo/src/characters_set/%s.rs' % fname
    lines = [strip_comment(l) for l in open(path, encoding='utf-8').read().split('\n')]
    text = '\n'.join(lines)
    print('(** ** %s *)' % path)
    names = {}
    for m in re.finditer(r'pub const (\w+): Correspondence<Linear>\s*=\s*Linear::new\(\s*%s\s*,\s*%s\s*,?\s*\)\s*\.corr\(\);' % (STR, STR), text):
        ln = text.count('\n', 0, m.start()) + 1
        print('(** %s:%d *)' % (path, ln))
        print('Definition %s_%s : corr := linear %s %s.' % (prefix, m.group(1), lst(unesc(m.group(2))), lst(unesc(m.group(3)))))
        names[m.group(1)] = 1
    assert len(names) == text.count('Correspondence<Linear>'), fname
    m = re.search(r'fn items\(&self\) -> Vec<Item> \{\s*\(((?:.|\n)*?)\)\s*\.items\(\)', text)
    l0 = text.count('\n', 0, m.start()) + 1
    l1 = text.count('\n', 0, m.end()) + 1
    terms = [t.strip().lstrip('&').replace('Self::', '') for t in m.group(1).split('+')]
    assert all(t in names for t in terms), fname
    print('(** %s:%d-%d: the chain of [+] in [items()]. *)' % (path, l0, l1 + 1))
    print('Definition %s_terms : list corr :=\n  [ %s ].' % (chain_name, '\n  ; '.join('%s_%s' % (prefix, t) for t in terms[1:])))
    print('Definition %s : corr := fun o => add_chain o 0 %s_%s %s_terms.\n' % (chain_name, prefix, terms[0], chain_name))

print('(** Generated by tools/mkcharset.py from /repo; do not edit. *)')
print('From Verif Require Import Base Corr.')
print('Local Open Scope N_scope.\n')
module('digits', 'Digits', 'DIGITS')
module('punctuations', 'Punctuations', 'PUNCTUATIONS')
module('alphabets', 'Alphabets', 'ALPHABETS')
module('kanas', 'Kanas', 'KANAS')
module('cjk_compatibilities', 'Cjk', 'CJK_COMPATIBILITIES')

path = '/repo/src/modifier/neologdn.rs'
text = '\n'.join(strip_comment(l) for l in open(path, encoding='utf-8').read().split('\n'))
def at(m): return '%d-%d' % (text.count('\n', 0, m.start()) + 1, text.count('\n', 0, m.end()) + 1)
print('(** ** %s *)' % path)
for name in ['KANA_TEN', 'KANA_MARU']:
    m = re.search(r'const %s: \[\(&str, &str\); (\d+)\] = \[((?:.|\n)*?)\];' % name, text)
    prs = re.findall(r'\(%s, %s\)' % (STR, STR), m.group(2))
    assert len(prs) == int(m.group(1))
    print('(** %s:%s *)' % (path, at(m)))
    print('Definition %s : list (str * str) :=\n  [ %s ].' % (name, '\n  ; '.join('(%s, %s)' % (lst(unesc(a)), lst(unesc(b))) for a, b in prs)))
m = re.search(r"const TILDES: \[char; (\d+)\] = \[(.*?)\];", text)
cs = re.findall(r"'(.)'", m.group(2)); assert len(cs) == int(m.group(1))
print('(** %s:%s *)' % (path, at(m)))
print('Definition TILDES : list char := %s.' % lst([ord(c) for c in cs]))
for name in ['CHOONPUS', 'HYPHENS']:
    m = re.search(r'const %s: Correspondence<Unification>\s*=\s*Unification::new\(\s*&\[((?:.|\n)*?)\],\s*%s,?\s*\)\s*\.corr\(\);' % (name, STR), text)
    fs = re.findall(STR, m.group(1))
    print('(** %s:%s *)' % (path, at(m)))
    print('Definition %s : corr := unification [%s] %s.' % (name, '; '.join(lst(unesc(f)) for f in fs), lst(unesc(m.group(2)))))
