#!/usr/bin/env python3
"""Compares the texts in rocq/theories/SrcText.v, DeriveText.v, KeyText.v and AttrText.v with the files of the repository.

usage: tools/check_text.py [/repo]
"""
import re
import sys
import pathlib

repo = pathlib.Path(sys.argv[1] if len(sys.argv) > 1 else "/repo")
here = pathlib.Path(__file__).resolve().parent.parent / "rocq" / "theories"
text = "".join((here / f).read_text() for f in ["SrcText.v", "DeriveText.v", "KeyText.v", "AttrText.v"])
pattern = re.compile(
    r'^\(\*\* (\S+):1-(\d+)\. \*\)\nDefinition (\w+) : list string :=\n\[(.*?)\]\.$', re.S | re.M)
bad = False
for path, count, name, body in pattern.findall(text):
    lines = [line[1:-1].replace('""', '"') for line in body.split(';\n ')]
    same = "\n".join(lines) + "\n" == (repo / path).read_text() and len(lines) == int(count)
    print("same     " if same else "DIFFERENT", name, path)
    bad |= not same
sys.exit(bad)
