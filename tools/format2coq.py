#!/usr/bin/env python3
"""Generates rocq/theories/FormatData.v from formatting/core.rs (get_separator) and formatting/utils.rs (KEYWORDS)."""
import re, sys
R = '/repo/src/server/message_handler/formatting/'
core = open(R + 'core.rs').read()
utils = open(R + 'utils.rs').read()
m = re.search(r'fn get_separator\(kind: SyntaxKind\) -> Seperator \{\s*match kind \{(.*?)\n    \}\n\}', core, re.S)
body = m.group(1)
arms = re.findall(r'((?:\s*\|?\s*SyntaxKind::\w+)+)\s*=>\s*Seperator::(\w+),', body)
rest = re.sub(r'((?:\s*\|?\s*SyntaxKind::\w+)+)\s*=>\s*Seperator::(\w+),', '', body).strip()
assert re.fullmatch(r'_ => Seperator::Unknown,', rest), rest
line = lambda s, off: s[:off].count('\n') + 1
out = ['(** Generated by tools/format2coq.py from src/server/message_handler/formatting/core.rs and utils.rs. *)',
       'From Coq Require Import List.', 'Import ListNotations.', 'From Verif Require Import Kinds.', '']
out.append('(** core.rs:%d-%d  enum Seperator, fn get_separator *)' % (line(core, m.start()) - 8, line(core, m.end())))
out.append('Inductive separator := LineBreak | Space | Empty | Unknown.')
out.append('Definition get_separator (k : kind) : separator :=')
out.append('  match k with')
for ks, s in arms:
    ks = re.findall(r'SyntaxKind::(\w+)', ks)
    out.append('  | ' + ' | '.join('K_' + k for k in ks) + ' => ' + s)
out.append('  | _ => Unknown')
out.append('  end.')
m = re.search(r'pub const KEYWORDS: \[SyntaxKind; (\d+)\] = \[(.*?)\];', utils, re.S)
ks = re.findall(r'SyntaxKind::(\w+)', m.group(2))
assert len(ks) == int(m.group(1)), (len(ks), m.group(1))
out.append('(** utils.rs:%d-%d  KEYWORDS *)' % (line(utils, m.start()), line(utils, m.end())))
out.append('Definition KEYWORDS : list kind := [')
out.append('  ' + '; '.join('K_' + k for k in ks))
out.append('].')
print('\n'.join(out))
