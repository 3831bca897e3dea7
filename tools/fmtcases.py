#!/usr/bin/env python3
"""Turn the cases of /repo/pkg/format/formatter_test.go into Coq examples about FormatTree.Model.

The inputs are lexed and parsed here (comments on the line of the previous token trail it, others
lead the next token), the trees are printed as Coq terms, and each example says that the model
formats the tree to the text the unit test expects.  Run in /verif:
    python3 tools/fmtcases.py --samples > rocq/theories/FormatTree/Samples.v
    python3 tools/fmtcases.py > rocq/theories/FormatTree/Cases.v
"""
import re, sys

src = open("/repo/pkg/format/formatter_test.go").read()
cases = []
for m in re.finditer(r"(\d+): \{\s*input:\s*`(.*?)`(\[1:\])?,(?:\s*want:\s*`(.*?)`(\[1:\])?,)?", src, re.S):
    inp = m.group(2)[1 if m.group(3) else 0:]
    want = inp if m.group(4) is None else m.group(4)[1 if m.group(5) else 0:]
    cases.append((int(m.group(1)), inp, want))

TOK = re.compile(r"""(?P<ws>\s+)|(?P<lc>//[^\n]*)|(?P<bc>/\*.*?\*/)|(?P<id>[A-Za-z_]\w*)|(?P<num>\.?\d[\w.]*)|(?P<str>"(?:\\.|[^"\\])*"|'(?:\\.|[^'\\])*')|(?P<rune>.)""", re.S)

class T:
    def __init__(s, kind, text, ws, line):
        s.kind, s.text, s.ws, s.line, s.lead, s.trail, s.virtual = kind, text, ws, line, [], [], False

def lex(text):
    toks, pend, ws, line = [], [], "", 0
    for m in TOK.finditer(text):
        k, t = m.lastgroup, m.group()
        if k == "ws":
            ws += t
        elif k in ("lc", "bc"):
            if toks and toks[-1].line == line and not pend:
                toks[-1].trail.append((t, ws))
            else:
                pend.append((t, ws))
            ws = ""
        else:
            tk = T({"id": "KId", "num": "KNum", "str": "KStr", "rune": "KRune"}[k], t, ws, line)
            tk.lead, pend, ws = pend, [], ""
            toks.append(tk)
        line += t.count("\n")
    eof = T("KRune", "", ws, line)
    eof.lead = pend
    return toks, eof

def bs(s):
    if s == "":
        return "[]"
    parts, cur = [], ""
    for c in s:
        if c in '\n"' or ord(c) > 126:
            if cur:
                parts.append('b_ "%s"' % cur); cur = ""
            parts.append("[nl]" if c == "\n" else "[dq]")
        else:
            cur += c
    if cur:
        parts.append('b_ "%s"' % cur)
    return "(" + " ++ ".join(parts) + ")"
def com(c):
    return "Comment %s %s false" % (bs(c[0]), bs(c[1]))
def lst(l):
    return "[" + "; ".join(l) + "]"
def tok(t):
    if not t.lead and not t.trail and not t.virtual:
        return "(tk %s %s %s %d)" % (t.kind, bs(t.text), bs(t.ws), t.line)
    return "(Token %s %s %s %s %s %d %s)" % (t.kind, bs(t.text), lst(map(com, t.lead)), lst(map(com, t.trail)), bs(t.ws), t.line, str(t.virtual).lower())
def o(x, f=tok):
    return "None" if x is None else "(Some %s)" % f(x)
ident_ = lambda s: s

class P:
    def __init__(s, toks, eof):
        s.t, s.i, s.eof = toks, 0, eof
    def peek(s, k=0):
        return s.t[s.i + k].text if s.i + k < len(s.t) else None
    def kind(s):
        return s.t[s.i].kind if s.i < len(s.t) else None
    def next(s, want=None):
        t = s.t[s.i]; s.i += 1
        assert want is None or t.text in want, (t.text, want)
        return t
    def opt(s, want):
        return s.next() if s.peek() is not None and s.peek() in want else None
    def semi(s):
        t = s.opt((";",))
        if t is None:
            t = T("KRune", ";", "", s.t[s.i - 1].line); t.virtual = True
        return t
    def ident(s):
        ts = [s.next()]
        if ts[0].text == ".":
            ts.append(s.next())
        while s.peek() == ".":
            ts += [s.next(), s.next()]
        return "(Id %s)" % tok(ts[0]) if len(ts) == 1 else "(Cid %s)" % lst(map(tok, ts))
    def ref(s):
        op = s.opt(("(", "["))
        if op:
            n = s.ident(); sl = s.opt(("/",))
            if sl:
                u, n = n, s.ident()
                return "(FieldRef (Some %s) (Some %s) (Some %s) %s (Some %s))" % (tok(op), u, tok(sl), n, tok(s.next(("]",))))
            cl = s.next((")", "]"))
            return "(FieldRef (Some %s) None None %s (Some %s))" % (tok(op), n, tok(cl))
        return "(FieldRef None None None (Id %s) None)" % tok(s.next())
    def value(s):
        k, p = s.kind(), s.peek()
        if k == "KStr":
            ts = [s.next()]
            while s.kind() == "KStr":
                ts.append(s.next())
            return "(VTok %s)" % tok(ts[0]) if len(ts) == 1 else "(VStr %s)" % lst(map(tok, ts))
        if p == "-":
            a = s.next(); b = s.next()
            return "(VNum %s %s)" % (tok(a), tok(b))
        if p in ("{", "<"):
            a = s.next(); fs = []
            while s.peek() not in ("}", ">"):
                n = s.ref(); sep = s.opt((":",)); v = s.value(); sm = s.opt((",", ";"))
                fs.append("MField %s %s %s %s" % (n, o(sep), v, o(sm)))
            b = s.next()
            return "(VMsg %s %s %s None)" % (tok(a), lst(fs), tok(b))
        if p == "[":
            a = s.next(); vs = []; cs = []
            while s.peek() != "]":
                vs.append(s.value())
                c = s.opt((",",))
                if c: cs.append(tok(c))
            b = s.next()
            return "(VArr %s %s %s %s None)" % (tok(a), lst(vs), lst(cs), tok(b))
        return "(VTok %s)" % tok(s.next())
    def name(s):
        ps = ["PRef %s" % s.ref()]
        while s.peek() == ".":
            ps.append("PDot %s" % tok(s.next())); ps.append("PRef %s" % s.ref())
        return lst(ps)
    def option(s):
        k = s.next(("option",)); n = s.name(); e = s.next(("=",)); v = s.value()
        return "(Opt (Some %s) (Some %s) (Some %s) (Some %s) (Some %s))" % (tok(k), n, tok(e), v, tok(s.semi()))
    def copts(s):
        if s.peek() != "[":
            return "None"
        a = s.next(); os = []
        while s.peek() != "]":
            if s.peek() == ",":
                os.append("Opt None None None None (Some %s)" % tok(s.next())); continue
            n = s.name(); e = s.next(("=",)); v = s.value(); c = s.opt((",",))
            os.append("Opt None (Some %s) (Some %s) (Some %s) %s" % (n, tok(e), v, o(c)))
        b = s.next()
        return "(Some (COpts %s %s %s None))" % (tok(a), lst(os), tok(b))
    def relems(s):
        es = []
        while s.peek() not in (";", "[", "}"):
            if s.peek() == ",":
                es.append("RComma %s" % tok(s.next())); continue
            v = s.value()
            if s.peek() == "to":
                t = s.next()
                if s.peek() == "max":
                    es.append("RRange %s (Some %s) None (Some %s)" % (v, tok(t), tok(s.next())))
                else:
                    es.append("RRange %s (Some %s) (Some %s) None" % (v, tok(t), s.value()))
            elif v.startswith("(VTok (tk KNum"):
                es.append("RRange %s None None None" % v)
            else:
                es.append("RVal %s" % v)
        return lst(es)
    def body(s):
        a = s.next(("{",)); ds = []
        while s.peek() != "}":
            ds.append(s.decl())
        b = s.next()
        return "%s %s %s None" % (tok(a), lst(ds), tok(b))
    def decl(s):
        p = s.peek()
        if p == "option":
            return "DOption %s" % s.option()
        if p in ("message",) and s.peek(2) == "{":
            k = s.next(); n = s.next()
            return "DMessage %s %s %s" % (tok(k), tok(n), s.body())
        if p in ("enum", "oneof", "service") and s.peek(2) == "{":
            k = s.next(); n = s.next()
            return "D%s %s %s %s" % (p.capitalize(), tok(k), tok(n), s.enum_body() if p == "enum" else s.body())
        if p == "rpc":
            k = s.next(); n = s.next(); i = s.rpctype(); r = s.next(("returns",)); u = s.rpctype()
            if s.peek() == "{":
                a = s.next(); ds = []
                while s.peek() != "}":
                    ds.append(s.decl())
                b = s.next()
                return "DRpc %s %s %s %s %s (Some (%s, %s)) %s None" % (tok(k), tok(n), i, tok(r), u, tok(a), tok(b), lst(ds))
            return "DRpc %s %s %s %s %s None [] (Some %s)" % (tok(k), tok(n), i, tok(r), u, tok(s.semi()))
        if p == ";":
            return "DEmpty %s" % tok(s.next())
        if p == "extend":
            k = s.next(); i = s.ident()
            return "DExtend %s (Some %s) %s" % (tok(k), i, s.body())
        if p == "reserved":
            k = s.next(); es = s.relems()
            return "DReserved %s %s (Some %s)" % (tok(k), es, tok(s.semi()))
        if p == "extensions":
            k = s.next(); es = s.relems(); os = s.copts()
            return "DExtensions %s %s %s (Some %s)" % (tok(k), es, os, tok(s.semi()))
        if p == "map" and s.peek(1) == "<":
            k = s.next(); a = s.next(); key = s.ident(); c = s.next(); v = s.ident(); b = s.next()
            n = s.next(); e = s.next(("=",)); tg = s.value(); os = s.copts()
            return "DMap %s %s %s %s %s %s None %s %s %s %s (Some %s)" % (tok(k), tok(a), key, tok(c), v, tok(b), tok(n), tok(e), tg, os, tok(s.semi()))
        l = s.next() if p in ("optional", "repeated", "required") else None
        if s.peek() == "group" and s.peek(2) == "=":
            k = s.next(); n = s.next(); e = s.next(); tg = s.value(); os = s.copts()
            return "DGroup %s %s %s %s %s %s %s" % (o(l), tok(k), tok(n), tok(e), tg, os, s.body())
        ty = s.ident(); n = s.next(); e = s.next(("=",)); tg = s.value(); os = s.copts()
        return "DField %s %s (Some %s) (Some %s) (Some %s) %s (Some %s)" % (o(l), ty, tok(n), tok(e), tg, os, tok(s.semi()))
    def rpctype(s):
        a = s.next(("(",)); st = s.next() if s.peek() == "stream" else None; i = s.ident(); b = s.next((")",))
        return "(RpcType %s %s %s %s)" % (tok(a), o(st), i, tok(b))
    def enum_body(s):
        a = s.next(("{",)); ds = []
        while s.peek() != "}":
            if s.peek() in ("option", "reserved"):
                ds.append(s.decl()); continue
            n = s.next(); e = s.next(("=",)); v = s.value(); os = s.copts()
            ds.append("DEnumValue %s %s %s %s (Some %s)" % (tok(n), tok(e), v, os, tok(s.next((";", ",")))))
        b = s.next()
        return "%s %s %s None" % (tok(a), lst(ds), tok(b))
    def top(s):
        p = s.peek()
        if p == "option":
            return "FOption %s" % s.option()
        if p == "package":
            k = s.next(); i = s.ident()
            return "FPackage %s (Some %s) (Some %s)" % (tok(k), i, tok(s.semi()))
        if p == "import":
            k = s.next(); m = s.next() if s.peek() in ("public", "weak") else None
            path = bs(s.peek()[1:-1]); v = s.value()
            return "FImport (Import %s %s %s %s (Some %s))" % (tok(k), o(m), v, path, tok(s.semi()))
        return "FDecl (%s)" % s.decl()
    def file(s):
        ds = []
        syn = "None"
        if s.peek() in ("syntax", "edition"):
            k = s.next(); e = s.next(); v = s.value()
            syn = "(Some (%s, %s, %s, Some %s))" % (tok(k), tok(e), v, tok(s.semi()))
        while s.i < len(s.t):
            ds.append(s.top())
        return "File %s %s (Some %s)" % (syn, lst(ds), tok(s.eof))

HEADER = """From Coq Require Import List Arith Bool ZArith NArith Ascii String.
From Verif Require Import Base Strs.
From Verif.Format Require Import Model.
From Verif.FormatTree Require Import Model%s.
Import ListNotations.
Open Scope list_scope.
"""
DEFS = """
Definition tk k t ws line := Token k t [] [] ws line false.
(* alg.go:33-35 in exact arithmetic: size is at least 2.5 times, or at most 0.4 times, the geometric
   mean of the sizes. *)
Definition exact_dec (sizes : list nat) (size : nat) : bool :=
  let n := N.of_nat (List.length sizes) in
  let prod := fold_right (fun a p => N.of_nat a * p)%N 1%N sizes in
  let s := N.of_nat size in
  ((5 ^ n * prod <=? (2 * s) ^ n) || ((5 * s) ^ n <=? 2 ^ n * prod))%N.
(* format.go:96-109: PrintNode drops one newline at each end *)
Definition print_node (s : bytes) : bytes :=
  let s1 := match s with c :: r => if Ascii.eqb c nl then r else s | [] => [] end in
  match rev s1 with c :: r => if Ascii.eqb c nl then rev r else s1 | [] => [] end.
Definition printed (f : file) : bytes * bool * bool :=
  let r := format exact_dec (fun l => l) (fun l => l) f in (print_node (out r), err r, crash r).
"""
SAMPLES = [
    ("whole", """// License.

syntax = "proto3";
package a.b; // the package
import 'x.proto';
import public "x.proto"; // kept
import "y.proto";
option java_package = 'p';
option (opt).f = {a: 1; b {c: [1, 2] d: -3.5}};

// A message.
message M {
  int32 f = 1 [deprecated = true, (x) = "s"]; /* one */
  repeated .a.b.N  g = 2;
  map<string, a.b.N> m = 3;
  oneof o {
    string s = 4 [
      json_name = 't',
      (y) = {u: "v" 'w'},
    ];
  }
  reserved 5 to 7, 9 to max;
  message N { ; }
  enum E { option allow_alias = true; A = 0; B = -1; }
}
service S {
  rpc Get(M) returns (stream M) {}
  rpc Put(stream .a.b.M) returns (M) {
    option deprecated = true;
  }
}
// The end.
"""),
    ("leading_dot", "message A {\n  .foo.Bar f = 1;\n}\n"),
    ("dropped_option", "message A {\n  int32 f = 1 [(x) = \"a\" \"b\", deprecated = true];\n}\n"),
    ("compound_last", "message A {\n  int32 f = 1 [\n    (x) = \"a\"\n    \"b\"\n  ];\n}\n"),
    ("unbalanced", "message A {\n  option (x) = {a: {b: \"x\" \"y\"}, c: \"z\" \"w\"};\n}\n"),
    ("uneven", "message A {\n  option (x) = {a: {b: {\n    c: 1\n  }}, e: {\n    f: 1\n  }, g: {\n    f: 1\n  }};\n}\n"),
    ("even", "option (x) = {a: {b: {\n c: \"x\" \"y\"\n d: [1, {\n   q: 1\n }]\n}}};\nmessage A {\n  int32 f = 1 [(y) = {\n    z: [{a: 1, b: {\n      c: 2\n    }}]\n  }, deprecated = true];\n  int32 g = 2 [\n    deprecated = true\n  ];\n  reserved 1 to 3, \"a\", \"b\";\n}\n"),
    ("rpc_comment", "service S {\n  rpc M(A) returns (B) {\n    // todo\n  }\n}\n"),
    ("empty_comment", "message A {\n  ; // note\n}\n"),
    ("two_packages", "package a;\npackage b;\n"),
    ("rpc_semi", "service S {\n  rpc A(B) returns (C); // x\n}\n"),
    ("brace_semi", "message A {}; // x\n"),
    ("option_value", "option a = 1 // x\n;\n"),
    ("option_dot", "option (a). /* x */ b = 1;\n"),
    ("doubled", "message M {\n  int32 f = 1 [\n    deprecated /* c */ = true\n  ];\n}\n"),
    ("doubled_again", "message M {\n  int32 f = 1 [\n    deprecated /* c */ /* c */ = true\n  ];\n}\n"),
    ("lossy", "// Head.\nmessage A { // open\n  // f\n  int32 f = 1 [(x) = {a /* a */ : 1 /* v */, b: [1, // b\n 2]}]; // one\n  ; // gone\n  reserved /* r */ 5 to max; // res\n}\n// eof\n"),
    ("commented", "// Head.\n\n/* A. */\nmessage A {\n  // f\n  int32 f = 1; // one\n  // tail\n}\n// eof\n"),
    ("parts", "message A {\n  map<string, int32> m = 1;\n  oneof o {\n    int32 x = 2;\n  }\n  optional group G = 3 {\n    optional int32 y = 1;\n  }\n}\n"),
    ("fence", "message A {\n  /* as in:\n  ```\n  A {}\n  ```\n  */\n  int32 f = 1;\n}\n"),
]
HIGHLIGHT = [
    ("url", "option (x) = {[a.com/b.C] {f: 1}};\n"),
    ("special", "option (x) = {f: inf, g: [true, false]};\n"),
    ("dotted", "message A {\n  // the field\n  .foo.Bar f = 1;\n}\n"),
    ("ending", "message A {}\n// the end\n"),
    ("why", "option deprecated = true /* why */;\n"),
    ("broken", "service S {\n  rpc Get(a.\n      B) returns (C);\n}\n"),
    ("foreign", "message A {\n  my.google.protobuf.Any f = 1;\n}\n"),
]
if len(sys.argv) > 1 and sys.argv[1] == "--highlight":
    print("(* Sources and their trees, for the examples of Highlight/Props.v.  Generated by tools/fmtcases.py --highlight. *)")
    print(HEADER % " Samples")
    for name, text in HIGHLIGHT:
        print("Definition %s_text : bytes := %s.\nDefinition %s_file : file := %s.\n" % (name, bs(text), name, P(*lex(text)).file()))
    sys.exit()
STABLE = [  # a source and what formatting it once and twice gives
    ("lines", "message A {\n  int32 a\n = 1;\n  string bb = 2;\n}\n", "message A {\n  int32 a = 1;\n  string bb = 2;\n}\n",
     "message A {\n  int32  a  = 1;\n  string bb = 2;\n}\n"),
    ("opts", "message A {\n  int32 a = 1 [\n deprecated = true]; int32 bbbb = 2;\n  int32 c = 3;\n}\n",
     "message A {\n  int32 a    = 1 [\n    deprecated = true\n  ];\n  int32 bbbb = 2;\n  int32 c    = 3;\n}\n",
     "message A {\n  int32 a = 1 [\n    deprecated = true\n  ];\n  int32 bbbb = 2;\n  int32 c    = 3;\n}\n"),
    ("maps", "message A {\n  map<string,\n int32> a = 1;\n  string bb = 2;\n}\n",
     "message A {\n  map<string, int32> a = 1;\n  string bb = 2;\n}\n",
     "message A {\n  map<string, int32> a  = 1;\n  string             bb = 2;\n}\n"),
    ("head", "\n\nmessage A {}\n", "\nmessage A {}\n", "message A {}\n"),
    ("neat", "syntax=\"proto3\"; package a.b;\nimport \"x.proto\";\nimport public \"y.proto\";\noption java_package = \"p\";\nmessage M { int32 f = 1 [deprecated = true];\n\n\n\n repeated .a.b.N ggg = 2;\n map<string, a.b.N> m = 3; oneof o { string s = 4; }\n reserved 5 to 7, 9 to max; message N {}\nenum E { option allow_alias = true; A = 0; B = -1; } }\nservice S { rpc Get(M) returns (stream M);\nrpc Put(stream .a.b.M) returns (M) { option deprecated = true; } }\n",
     "syntax = \"proto3\";\npackage a.b;\n\nimport \"x.proto\";\nimport public \"y.proto\";\n\noption java_package = \"p\";\n\nmessage M {\n  int32 f = 1 [deprecated = true];\n\n  repeated .a.b.N    ggg = 2;\n  map<string, a.b.N> m   = 3;\n  oneof o {\n    string s = 4;\n  }\n  reserved 5 to 7, 9 to max;\n  message N {}\n  enum E {\n    option allow_alias = true;\n    A = 0;\n    B = -1;\n  }\n}\n\nservice S {\n  rpc Get(M) returns (stream M);\n  rpc Put(stream .a.b.M) returns (M) {\n    option deprecated = true;\n  }\n}\n"),
]
if len(sys.argv) > 1 and sys.argv[1] == "--stable":
    print("(* Sources and their trees, for the examples of Stable/Props.v.  Generated by tools/fmtcases.py --stable. *)")
    print(HEADER % " Samples")
    for name, *texts in STABLE:
        for i, text in enumerate(texts):
            print("Definition %s%d_text : bytes := %s.\nDefinition %s%d : file := %s.\n" % (name, i, bs(text), name, i, P(*lex(text)).file()))
    sys.exit()
REWRITE = [  # the text before a message, the message, the text after it
    ("nested", "message Outer {\n  // a point\n  ",
     "message P {\n    // how far\n    int32 x = 7; // x\n    repeated string tags = 3 [deprecated = true];\n    reserved 9;\n    P next = 5; /* the\n      next */\n  }",
     " // end\n\n  P p = 1;\n}\n"),
    ("keyword", "", "message /* lost */ A {\n  int32 x = 2;\n}", "\n"),
    ("tagged", "", "message A {\n  int32 x = 2 /* lost */;\n}", "\n"),
    ("doubled", "", "message A {\n  int32 x = 2;\n}", " // end\n"),
    ("inlined", "", "message A {\n  // lost\n  B b = 2;\n}", "\n\nmessage B {\n  int32 x = 1;\n}\n"),
]
if len(sys.argv) > 1 and sys.argv[1] == "--rewrite":
    print("(* Sources and their trees, for the examples of Rewrite/Props.v.  Generated by tools/fmtcases.py --rewrite. *)")
    print(HEADER % " Samples")
    for name, a, it, b in REWRITE:
        print("Definition %s_before : bytes := %s.\nDefinition %s_it : bytes := %s.\nDefinition %s_after : bytes := %s.\nDefinition %s_file : file := %s.\n" % (name, bs(a) if a else "[]", name, bs(it), name, bs(b), name, P(*lex(a + it + b)).file()))
    sys.exit()
if len(sys.argv) > 1 and sys.argv[1] == "--samples":
    print("(* Sources and their trees, for the examples of Props.v.  Generated by tools/fmtcases.py --samples. *)")
    print(HEADER % "" + DEFS)
    for name, text in SAMPLES:
        print("Definition %s_text : bytes := %s.\nDefinition %s_file : file := %s.\n" % (name, bs(text), name, P(*lex(text)).file()))
    sys.exit()
if len(sys.argv) > 1:  # format a file and print what the model says
    text = open(sys.argv[1]).read()
    print(HEADER % " Samples" + "Definition shown (s : bytes) : string := string_of_list_ascii s.\nEval vm_compute in (let '(a, b, c) := printed (%s) in (shown a, b, c))." % P(*lex(text)).file())
    sys.exit()
print("""(* The unit tests of the formatter (pkg/format/formatter_test.go:15-290), as computations of the
   model.  Generated by tools/fmtcases.py, which lexes and parses the inputs; do not edit. *)
""" + HEADER % " Samples")
for n, inp, want in cases:
    for name, text in (("", inp), ("_again", want)):
        if name and inp == want:
            continue
        tree = P(*lex(text)).file()
        print("Example unit_test_%d%s : printed (%s)\n  = (%s, false, false).\nProof. vm_compute. reflexivity. Qed.\n" % (n, name, tree, bs(want)))
