#!/usr/bin/env python3
"""Translate the documents of /repo/babylondigger/tests/evaluation/test_data.py into rocq/theories/Tests_Data.v.

The file is read as text (its syntax tree), nothing of it is run."""
import ast
import os

SOURCE = "/repo/babylondigger/tests/evaluation/test_data.py"
TARGET = os.path.join(os.path.dirname(os.path.abspath(__file__)), "..", "rocq", "theories", "Tests_Data.v")

FIELDS = ["start", "end", "pos", "lemma", "deprel", "sub_index", "text_replacement",
          "head_document_index", "head_sentence_index", "extras"]


def text(s):
    return '(u8 "%s")' % s.replace('"', '""')


def number(node):
    value = ast.literal_eval(node)
    return "(%d)" % value if value < 0 else str(value)


def option(f, node):
    if node is None or (isinstance(node, ast.Constant) and node.value is None):
        return "None"
    return "(Some %s)" % f(node)


def string(node):
    return text(ast.literal_eval(node))


def arguments(call, names):
    given = dict(zip(names, call.args))
    given.update((k.arg, k.value) for k in call.keywords)
    assert set(given) <= set(names), given
    return given


def pos(call):
    a = arguments(call, ["upos", "xpos", "feats"])
    feats = ast.literal_eval(a["feats"]) if "feats" in a else {}
    items = "; ".join("(%s, %s)" % (text(k), text(v)) for k, v in feats.items())
    return "(mkPos %s %s [%s])" % (option(string, a.get("upos")), option(string, a.get("xpos")), items)


def token(call):
    a = arguments(call, FIELDS)
    return "new_token %s %s %s %s %s %s %s %s %s None" % (
        number(a["start"]), number(a["end"]), option(pos, a.get("pos")), option(string, a.get("lemma")),
        option(string, a.get("deprel")), number(a["sub_index"]) if "sub_index" in a else "0",
        option(string, a.get("text_replacement")), option(number, a.get("head_document_index")),
        option(number, a.get("head_sentence_index")))


def document(call):
    a = arguments(call, ["text", "tokens", "sentences", "validate_syntax"])
    tokens = ";\n    ".join(token(t) for t in a["tokens"].elts)
    sentences = "None"
    if "sentences" in a:
        spans = ["new_sentence %s %s" % tuple(number(x) for x in s.args) for s in a["sentences"].elts]
        sentences = "(Some [%s])" % "; ".join(spans)
    return "build %s [\n    %s]\n    %s" % (string(a["text"]), tokens, sentences)


def main():
    tree = ast.parse(open(SOURCE, encoding="utf-8").read())
    out = ['(* The documents of /repo/babylondigger/tests/evaluation/test_data.py, written by tools/gen_tests.py. *)',
           'From Coq Require Import String Ascii ZArith NArith Bool List.',
           'From Verif Require Import Base Model_Datamodel Model_Conllu.',
           'Import ListNotations.',
           'Open Scope Z_scope.',
           '',
           '(* the code points of a text in UTF-8 of at most two bytes each *)',
           'Fixpoint decode (bytes : list N) : str :=',
           '  match bytes with',
           '  | [] => []',
           '  | b :: rest =>',
           '      if (b <? 128)%N then b :: decode rest',
           '      else match rest with c :: rest\' => ((b - 192) * 64 + (c - 128))%N :: decode rest\' | [] => [] end',
           '  end.',
           'Definition u8 (s : string) : str := decode (of_string s).',
           '',
           '(* Document(text, [Token(...), ...], [Sentence(...), ...]) *)',
           'Definition build (text : str) (tokens : list (result token)) (sents : option (list (result sentence))) : result document :=',
           '  do ts <- mapM (fun t => t) tokens;',
           '  do ss <- match sents with None => Ok None | Some l => rmap Some (mapM (fun s => s) l) end;',
           '  new_document text ts ss false.',
           '']
    for node in tree.body:
        if not isinstance(node, ast.Assign):
            continue
        name = node.targets[0].id
        for key, value in zip(node.value.keys, node.value.values):
            key = key.value
            if key == "CoNLL-U":
                out.append("Definition %s_conllu : str := %s." % (name, string(value)))
            elif key == "text":
                out.append("Definition %s_text : str := %s." % (name, string(value)))
            elif key == "document":
                out.append("Definition %s : result document := %s." % (name, document(value)))
            elif key == "tokens count":
                out.append("Definition %s_tokens_count : Z := %s." % (name, number(value)))
            else:
                raise KeyError(key)
    with open(TARGET, "w", encoding="utf-8") as f:
        f.write("\n".join(out) + "\n")


if __name__ == "__main__":
    main()
