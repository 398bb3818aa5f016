#!/usr/bin/env python3
"""Writes rocq/theories/RepoTests.v: the tests of /repo, run on the model."""
import os, re

def q(s): return '(bs "%s")' % s.replace('"', '""')
def lst(l): return "[" + "; ".join(l) + "]"

I = lambda k="IInt": "TInt " + k if k != "IInt" else "(TInt IInt)"
def tint(k): return "(TInt %s)" % k
def tuint(k): return "(TUint %s)" % k
INT, STR, BOOL, F32, F64, ANY = "(TInt IInt)", "TString", "TBool", "TF32", "TF64", "TAny"
def sl(t): return "(TSlice %s)" % t
def ar(n, t): return "(TArray %d %s)" % (n, t)
def mp(k, v): return "(TMap %s %s)" % (k, v)
def pt(t): return "(TPtr %s)" % t
def nm(n): return "(TName %d)" % n
def f(name, ty, tag=""): return "fld \"%s\" \"%s\" %s" % (name, tag, ty)
def lower(name, ty): return "Field (bs \"%s\") false false [] %s" % (name, ty)
def emb(name, ty): return "Field (bs \"%s\") true true [] %s" % (name, ty)
def struct(*fs): return "Decl (UStruct %s) NoMethod false" % lst(fs)
def named(t): return "Decl (UTy %s) NoMethod false" % t

out = []
n = 0
where = {}
for d, _, fs in sorted(os.walk("/repo")):
    for fn in sorted(fs):
        if not fn.endswith("_test.go"): continue
        path = os.path.join(d, fn)
        name = None
        for i, line in enumerate(open(path, encoding="utf-8").read().split("\n")):
            m = re.match(r"(?:func|var) (\w+)", line)
            if m: start, name = i + 1, m.group(1)
            if line == "}" and m is None and name: where[name] = "%s:%d-%d" % (path[len("/repo/"):], start, i + 1); name = None
def section(names, note=""):
    """the tests of the following examples, with the lines they are at"""
    out.append("\n(** %s%s *)" % ("; ".join("%s %s" % (where[t], t) for t in names.split()), ": " + note if note else ""))
def emit(stmt):
    global n
    n += 1
    out.append("Example test_%03d : %s.\nProof. run. Qed." % (n, stmt))

# ---- Unmarshal ----
def reads(env, t, raw, v): emit("reads %s %s %s %s" % (lst(env), t, q(raw), v))
def accepts(env, t, raw): emit("accepts %s %s %s" % (lst(env), t, q(raw)))
def refuses(env, t, raw): emit("refuses %s %s %s" % (lst(env), t, q(raw)))
def vs(s): return "(VStr %s)" % q(s)
def vi(z): return "(VInt (%d))" % z
def vu(z): return "(VUint %d)" % z
def vst(*l): return "(VStruct %s)" % lst(l)
def vsl(*l): return "(VSlice (Some %s))" % lst(l)
def varr(*l): return "(VArr %s)" % lst(l)
def vm(*l): return "(VMap (Some %s))" % lst(["(%s, %s)" % e for e in l])
def vp(v): return "(VPtr (Some %s))" % v
def va(t, v): return "(VIface (Some (%s, %s)))" % (t, v)
def vas(s): return va("TString", vs(s))
def vai(z): return va("TInt I64", vi(z))

section("TestUnmarshal_as_string")
reads([struct(f("V", pt(INT), ",omitempty,string"))], nm(0), 'a:1:{s:1:"V";s:1:"1";}', vst(vp(vi(1))))
section("TestUnmarshal_struct_string")
reads([struct(f("F", STR, "f1q"), f("V", BOOL, "1a9"))], nm(0), 'a:1:{s:3:"f1q";s:10:"0147852369";}', vst(vs("0147852369"), "(VBool false)"))
reads([struct(f("F", STR, "f"))], nm(0), 'a:0:{}', vst(vs("")))
section("TestUnmarshal_stdClass")
raw = 'O:8:"stdClass":1:{s:1:"a";s:13:"a str value q";}'
reads([struct(f("A", STR, "a"))], nm(0), raw, vst(vs("a str value q")))
reads([], ANY, raw, va(mp(STR, ANY), vm((vs("a"), vas("a str value q")))))
reads([struct(f("Value", BOOL, "value"))], nm(0), 'a:2:{s:1:"a";O:8:"stdClass":1:{s:1:"a";s:13:"a str value q";}s:5:"value";b:1;}', vst("(VBool true)"))
section("TestUnmarshal_struct_bytes")
reads([struct(f("F", sl(tuint("U8")), "f1q"))], nm(0), 'a:1:{s:3:"f1q";s:10:"0147852369";}', vst("(vbytes %s)" % q("0147852369")))
reads([struct(f("F", sl(tuint("U8")), "f"))], nm(0), 'a:0:{}', vst("(VSlice None)"))
section("TestUnmarshal_struct_float")
for text, val in [("3.14", "(VF64 pi)"), ("1", "(VF64 one)"), ("-3.14", "(VF64 minus_pi)")]:
    reads([struct(f("F", F64, "f"))], nm(0), 'a:1:{s:1:"f";d:%s;}' % text, vst(val))
reads([struct(f("F", F32, "f1q"))], nm(0), 'a:1:{s:3:"f1q";d:147852369;}', vst("(VF32 (S754_finite false 9240773 4))"))
reads([struct(f("F", F64, "f1q"))], nm(0), 'a:1:{s:3:"f1q";d:147852369;}', vst("(VF64 large)"))
section("TestUnmarshal_struct_uint TestUnmarshal_struct_int")
for k, z in [("UUint", 147852369), ("U8", 255), ("U16", 574), ("U32", 57400), ("U64", 5740000)]:
    reads([struct(f("F", tuint(k), "f1q"))], nm(0), 'a:1:{s:3:"f1q";i:%d;}' % z, vst(vu(z)))
for k, z in [("IInt", 147852369), ("I8", 65), ("I16", 574), ("I32", 57400), ("I64", 5740000)]:
    reads([struct(f("F", tint(k), "f1q"))], nm(0), 'a:1:{s:3:"f1q";i:%d;}' % z, vst(vi(z)))
section("TestUnmarshal_slice")
C = [struct(f("Value", sl(STR), "value"))]
reads(C, nm(0), 'a:1:{s:5:"value";a:0:{}}', vst("(VSlice None)"))
reads(C, nm(0), 'a:3:{s:2:"bb";b:1;s:5:"value";a:3:{i:0;s:3:"one";i:1;s:3:"two";i:2;s:1:"q";}}', vst(vsl(vs("one"), vs("two"), vs("q"))))
six = 'a:1:{s:5:"value";a:6:{i:0;s:3:"one";i:1;s:3:"two";i:2;s:1:"q";i:3;s:1:"a";i:4;s:2:"zx";i:5;s:3:"abc";}}'
reads(C, nm(0), six, vst(vsl(*map(vs, ["one", "two", "q", "a", "zx", "abc"]))))
reads(C, nm(0), 'a:1:{s:5:"value";a:2:{i:0;s:1:"a";i:5;s:1:"b";}}', vst(vsl(*map(vs, ["a", "", "", "", "", "b"]))))
reads(C, nm(0), 'a:1:{s:5:"value";a:1:{i:1;s:1:"a";}}', vst(vsl(vs(""), vs("a"))))
section("TestUnmarshal_array")
A = [struct(f("Value", ar(5, STR), "value"))]
reads(A, nm(0), 'a:1:{s:5:"value";a:0:{}}', vst(varr(*map(vs, [""] * 5))))
reads(A, nm(0), 'a:1:{s:5:"value";a:3:{i:0;s:3:"one";i:1;s:3:"two";i:2;s:1:"q";}}', vst(varr(*map(vs, ["one", "two", "q", "", ""]))))
reads(A, nm(0), six, vst(varr(*map(vs, ["one", "two", "q", "a", "zx"]))))
section("TestUnmarshal_skip_value")
reads(C, nm(0), 'a:3:{s:2:"bb";b:1;s:5:"value";a:3:{i:0;s:3:"one";i:1;s:3:"two";i:2;s:1:"q";}s:6:"value2";a:3:{i:0;s:1:"1";i:1;s:1:"2";i:2;s:1:"3";}}', vst(vsl(vs("one"), vs("two"), vs("q"))))
section("TestUnmarshal_unmarshaler", "the method keeps a copy of its argument")
reads([struct(f("Value", nm(1), "value")), "Decl (UTy (TSlice (TUint U8))) NoMethod true"], nm(0), 'a:1:{s:5:"value";a:3:{i:0;s:3:"one";i:1;s:3:"two";i:2;s:1:"q";}}', vst("(vbytes %s)" % q('a:3:{i:0;s:3:"one";i:1;s:3:"two";i:2;s:1:"q";}')))
section("TestUnmarshal_string_wrapper")
reads([struct(f("Value", INT, "value,string"))], nm(0), 'a:1:{s:5:"value";s:3:"233";}', vst(vi(233)))
section("TestUnmarshal_map")
reads([struct(f("Value", mp(STR, STR), "value"))], nm(0), 'a:1:{s:5:"value";a:5:{s:3:"one";s:1:"1";s:3:"two";s:1:"2";s:5:"three";s:1:"3";s:4:"four";s:1:"4";s:4:"five";s:1:"5";}}',
      vst(vm(*[(vs(a), vs(b)) for a, b in [("one", "1"), ("two", "2"), ("three", "3"), ("four", "4"), ("five", "5")]])))
raw = 'a:1:{s:5:"value";a:5:{i:1;s:3:"one";i:2;s:3:"two";i:3;s:5:"three";i:4;s:4:"four";i:5;s:4:"five";}}'
nums = [(1, "one"), (2, "two"), (3, "three"), (4, "four"), (5, "five")]
reads([struct(f("Value", mp(ANY, STR), "value"))], nm(0), raw, vst(vm(*[(vai(a), vs(b)) for a, b in nums])))
reads([struct(f("Value", ANY, "value"))], nm(0), raw, vst(va(mp(ANY, ANY), vm(*[(vai(a), vas(b)) for a, b in nums]))))
section("TestUnmarshal_ptr_string")
reads([struct(f("F", pt(STR), "f1q"))], nm(0), 'a:1:{s:3:"f1q";s:10:"0147852369";}', vst(vp(vs("0147852369"))))
reads([struct(f("F", pt(STR), "f"))], nm(0), 'a:0:{}', vst("(VPtr None)"))
refuses([struct(f("F", pt(pt(STR)), "f"))], nm(0), 'a:0:{}')
section("TestUnmarshal_anonymous_field")
refuses([struct(emb("N", nm(1)), f("C", INT)), struct(f("A", INT), f("B", INT))], nm(0), 'a:4:{s:1:"A";i:3;s:1:"B";i:2;s:1:"C";i:1;}')
section("TestUnmarshal_empty_input")
for t in [sl(INT), ar(5, INT), mp(tuint("UUint"), INT), ANY, STR, INT, tuint("UUint"), BOOL]: refuses([], t, '')
section("TestUnmarshal_as_string_2")
ids = [1087180 + i for i in range(7)]
reads([named(tuint("U32")), named(tuint("U8")), struct(f("ID", nm(0), "eid,string"), f("Type", nm(1), "type"))], mp(nm(0), nm(2)),
      'a:7:{' + "".join('i:%d;a:2:{s:3:"eid";s:7:"%d";s:4:"type";i:2;}' % (i, i) for i in ids) + '}', vm(*[(vu(i), vst(vu(i), vu(2))) for i in ids]))
section("TestUnmarshal_null_array_1")
accepts([struct(f("Name", pt(STR), "tag_name"), f("Count", INT, "result,string"))], sl(nm(0)), 'a:0:{}')
section("TestUnmarshal_null_array_2")
reads([], ANY, 'a:4:{s:1:"a";i:2;s:4:"Test";a:0:{}s:1:"b";a:0:{}s:1:"o";i:1;}',
      va(mp(ANY, ANY), vm((vas("a"), vai(2)), (vas("Test"), va(mp(ANY, ANY), vm())), (vas("b"), va(mp(ANY, ANY), vm())), (vas("o"), vai(1)))))
section("TestUnmarshal_array_with_bool_to_map")
reads([], mp(STR, ANY), 'O:8:"stdClass":1:{s:1:"a";b:0;}', vm((vs("a"), va("TBool", "(VBool false)"))))
section("TestUnmarshal_error_case")
src = open("/repo/tests/unmarshal_test.go", encoding="utf-8").read()
i = src.index("func TestUnmarshal_error_case"); raw = src[src.index("`", i) + 1:]; raw = raw[:raw.index("`")]
accepts([struct(f("Name", pt(STR), "tag_name"), f("Count", INT, "result,string"), f("TotalCount", INT, "tag_results,string"))], sl(nm(0)), raw)
section("TestUnmarshal_issue_69")
i = src.index("func TestUnmarshal_issue_69"); i = src.index("ddd := ", i); raw = src[src.index("`", i) + 1:]; raw = raw[:raw.index("`")]
reads([struct(f("CompanyId", INT, "company_id"), f("CorpID", STR, "corp_id"), f("OpenID", STR, "openid"), f("From", STR, "from"), f("Uid", INT, "uid"), f("UnionID", STR, "unionid"), f("OrgUid", INT, "org_uid,omitempty"), f("FromType", INT, "from_type"))], nm(0), raw,
      vst(vi(1), vs("ding4eb8f5a40a6244aa35c2f4657eb6378f"), vs("360946652480232"), vs("ding"), vi(2), vs("0Cg1QDDRfgyz8qMjqwwN0giEiE"), vi(0), vi(0)))

section("TestPHPFloatSpecialValues")
reads([], F64, 'd:INF;', "(VF64 (S754_infinity false))")
reads([], F64, 'd:-INF;', "(VF64 (S754_infinity true))")
reads([], F64, 'd:NAN;', "(VF64 S754_nan)")
section("TestUnmarshalNilPointer")
emit('exists e, unmarshal X0 [] 9 (bs "i:1;") (TgNilPtr (TInt IInt)) = (VOther, RErr e)')
section("TestUnmarshalTopLevelBoundaries")
refuses([], INT, '')
refuses([], INT, 'i:1;x')
section("TestUnmarshalerReceivesFloat", "a string type whose method keeps its argument")
for raw in ["d:3.5;", "i:-5;"]: reads(["Decl (UTy TString) NoMethod true"], nm(0), raw, vs(raw))
section("TestUnmarshalNullIntoString")
reads([], STR, 'N;', vs(""))
section("TestUnmarshalIntegerValidation")
reads([], tint("I64"), "i:9223372036854775807;", vi(2**63 - 1))
reads([], tint("I64"), "i:-9223372036854775808;", vi(-2**63))
for raw, z in [("i:000000000000000000001;", 1), ("i:-000000000000000000001;", -1), ("i:000000000000000000000;", 0), ("i:-000000000000000000000;", 0)]: reads([], tint("I64"), raw, vi(z))
refuses([], tint("I64"), "i:9223372036854775808;")
refuses([], tuint("U64"), "i:18446744073709551616;")
refuses([], tuint("U64"), "i:-1;")
refuses([], tint("I64"), "i:-;")
refuses([struct(f("Value", INT, "value,string"))], nm(0), 'a:1:{s:5:"value";s:2:"1x";}')
section("TestUnmarshalRejectsNegativeSequenceIndex")
for t in [sl(STR), ar(1, STR)]: refuses([], t, 'a:1:{i:-1;s:1:"x";}')
section("TestUnmarshalTruncatedInputDoesNotPanic", "every proper prefix")
S = [struct(f("X", INT))]
for env, t, raw in [([], BOOL, "b:1;"), ([], tint("I64"), "i:-123;"), ([], F64, "d:3.14;"), ([], STR, 's:5:"hello";'), ([], sl(STR), 'a:1:{i:0;s:1:"x";}'),
                    ([], mp(STR, INT), 'a:1:{s:1:"x";i:1;}'), (S, nm(0), 'a:1:{s:1:"X";i:1;}'), (S, nm(0), 'O:8:"stdClass":1:{s:1:"X";i:1;}')]:
    emit("forallb (fun n => refused %s %s (firstn n %s)) (seq 1 %d) = true" % (lst(env), t, q(raw), len(raw) - 1))
section("TestUnmarshalOversizedStringLengthDoesNotPanic")
refuses([], ANY, 's:9223372036854775807:"x";')
refuses([], ANY, 'O:9223372036854775807:"stdClass":0:{}')
section("ExampleUnmarshal")
reads([struct(f("Value", mp(STR, STR), "value"))], nm(0), 'a:1:{s:5:"value";a:5:{s:3:"one";s:1:"1";s:3:"two";s:1:"2";s:5:"three";s:1:"3";s:4:"four";s:1:"4";s:4:"five";s:1:"5";}}',
      vst(vm(*[(vs(a), vs(b)) for a, b in [("one", "1"), ("two", "2"), ("three", "3"), ("four", "4"), ("five", "5")]])))
BYTES = sl(tuint("U8"))
section("TestDecodeScalarTypes")
reads([], BOOL, "b:1;", "(VBool true)")
for k, z in [("IInt", -1), ("I8", -8), ("I16", -16), ("I32", -32), ("I64", -64)]: reads([], tint(k), "i:%d;" % z, vi(z))
for k, z in [("UUint", 1), ("U8", 8), ("U16", 16), ("U32", 32), ("U64", 64), ("UPtr", 9)]: reads([], tuint(k), "i:%d;" % z, vu(z))
reads([], F32, "d:3.5;", "(VF32 f35)")
reads([], F64, "d:-4.5;", "(VF64 minus_f45)")
reads([], STR, 's:3:"foo";', vs("foo"))
section("TestDecodeCompositeTypes")
reads([], BYTES, 's:3:"foo";', "(vbytes %s)" % q("foo"))
reads([], BYTES, 'a:2:{i:0;i:65;i:1;i:66;}', "(vbytes %s)" % q("AB"))
reads([], sl(STR), 'a:2:{i:0;s:1:"a";i:2;s:1:"c";}', vsl(vs("a"), vs(""), vs("c")))
reads([], ar(1, STR), 'a:2:{i:0;s:1:"a";i:2;s:1:"c";}', varr(vs("a")))
reads([], mp(STR, pt(INT)), 'a:1:{s:1:"x";i:2;}', vm((vs("x"), vp(vi(2)))))
reads([], mp(STR, ANY), 'O:8:"stdClass":1:{s:1:"x";i:2;}', vm((vs("x"), vai(2))))
reads([], pt(INT), 'i:2;', vp(vi(2)))
emit("unmarshal X0 [] 9 (bs \"N;\") (TgPtr %s %s) = (VPtr None, ROk tt)" % (pt(INT), vp(vi(2))))
section("TestDecodeStructAndWrappedStrings")
REC = struct(f("Bool", BOOL, "bool,string"), f("Int", INT, "int,string"), f("Uint", tuint("UUint"), "uint,string"), f("Float", F64, "float,string"), f("Ptr", pt(INT), "ptr,string"), f("Skip", STR, "-"))
rec = lambda z: vst("VBool true", vi(z), vu(3), "VF64 f45", vp(vi(5)), vs(""))
reads([REC], nm(0), 'a:5:{s:4:"bool";s:4:"true";s:3:"int";s:2:"-2";s:4:"uint";s:1:"3";s:5:"float";s:3:"4.5";s:3:"ptr";s:1:"5";}', rec(-2))
emit("unmarshal X0 [%s] 9 %s (TgPtr (TName 0) %s) = (%s, ROk tt)" % (REC, q('a:2:{s:7:"unknown";a:1:{i:0;d:1.5;}s:3:"int";s:1:"7";}'), rec(-2), rec(7)))
section("TestDecodeEmptyInterfaceValues")
for raw in ["N;", "b:1;", "i:1;", "d:1.5;", 's:1:"x";', 'a:1:{s:1:"x";i:1;}', 'O:8:"stdClass":1:{s:1:"x";i:1;}']: accepts([], ANY, raw)
section("TestDecodeUnmarshaler", "the types are strings here, not structs with a string")
RAW = "Decl (UTy TString) NoMethod true"
for raw in ['s:1:"x";', "i:1;", 'a:1:{i:0;d:1.5;}', 'O:8:"stdClass":0:{}']: reads([RAW], nm(0), raw, vs(raw))
reads([RAW], nm(0), "N;", vs(""))
IF = [RAW, struct()]
def into(v, raw, w): emit("unmarshal X0 %s 9 %s (TgPtr (TIface true) %s) = (%s, ROk tt)" % (lst(IF), q(raw), v, w))
into(va(pt(nm(0)), vp(vs(""))), "i:3;", va(pt(nm(0)), vp(vs("i:3;"))))
into(va(pt(nm(0)), vp(vs("i:3;"))), "N;", "VIface None")
emit("exists e, unmarshal X0 %s 9 (bs \"i:3;\") (TgPtr (TIface true) %s) = (%s, RErr e)" % (lst(IF), va(pt(nm(1)), vp(vst())), va(pt(nm(1)), vp(vst()))))
into(va(pt(nm(1)), vp(vst())), "N;", "VIface None")
section("TestDecodeErrors")
for raw, t in [("x", BOOL), ("i:128;", tint("I8")), ("i:-1;", tuint("UUint")), ("i:256;", tuint("U8")), ("d:1e100;", F32), ("b:1;", STR), ("i:1;", STR), ("d:1;", STR), ("1", sl(STR)),
               ("x", mp(STR, INT)), ("x", nm(0)), ("x", ANY), ('a:1:{i:0;}', sl(STR)), ('a:1:{s:1:"x";}', mp(STR, INT)), ("i:1;", "TOther")]: refuses(S, t, raw)
emit("exists e, compile_f X0 [] 9 [] %s = RErr e" % pt(pt(INT)))
emit("exists e, compile_f X0 %s 9 [] (TName 0) = RErr e" % lst([struct(emb("Embedded", nm(1))), struct(f("X", INT))]))
emit("exists e, compile_f X0 %s 9 [] (TName 0) = RErr e" % lst([struct(f("A", INT, "x"), f("B", INT, "x"))]))
section("TestDecodeNullAndEmptyContainers")
for t in [BOOL, INT, tuint("UUint"), F64, STR, BYTES, sl(INT), ar(1, INT), mp(STR, INT), nm(0)]: accepts(S, t, "N;")
for t in [BYTES, sl(INT), ar(1, INT), mp(STR, INT), nm(0)]: accepts(S, t, "a:0:{}")
section("TestDecodeDepthLimit")
for t in [sl(INT), ar(1, INT), mp(STR, INT), nm(0)]: emit("is_error (snd (decode X0 %s %s (bs \"a:0:{}\") 0 max_depth (zero %s %s))) = true" % (lst(S), t, lst(S), t))
section("TestUnmarshalerErrorAnnotation", "an UnmarshalPHP method that always fails")
refuses(["Decl (UTy TBool) NoMethod true"], nm(0), "i:1;")
def scan(fn, raw, want): emit("%s %s 0 = ROk %s" % (fn, q(raw), want))
def bad(fn, raw): emit("is_error (%s %s 0) = true" % (fn, q(raw)))
section("TestReadLength")
scan("read_length", ":0:", "(0, 3)"); scan("read_length", ":12:", "(12, 4)")
for raw in ["", "x", "::", ":1", ":1x", ":9223372036854775808:"]: bad("read_length", raw)
scan("read_length_int", ":12:", "(12, 4)"); bad("read_length_int", ":9223372036854775808:")
section("TestReadString")
scan("read_string", ':0:"";', "([], 6)"); scan("read_string", ':3:"foo";', "(bs \"foo\", 9)")
for raw in [':3:foo";', ':3:"fo', ':3:"foo!;', ':3:"foo"!', ':9223372036854775807:"x";']: bad("read_string", raw)
section("TestReadScalarTokens")
scan("read_integer_bytes", "i:0;", "(bs \"0\", 4)"); scan("read_integer_bytes", "i:-12;", "(bs \"-12\", 6)")
for raw in ["", "x:1;", "i", "i!1;", "i:;", "i:-;", "i:12", "i:1x"]: bad("read_integer_bytes", raw)
scan("read_float_bytes", "d:3.5;", "(bs \"3.5\", 6)")
for raw in ["", "x:1;", "d", "d!1;", "d:;", "d:1"]: bad("read_float_bytes", raw)
scan("read_bool", "b:0;", "false"); scan("read_bool", "b:1;", "true")
for raw in ["b:2;", "b!1;", "x:1;", "b:1"]: bad("read_bool", raw)
section("TestSkipValue")
for raw in ["N;", "b:1;", "i:-1;", "d:INF;", 's:3:"foo";', 'a:1:{s:1:"x";i:1;}', 'O:8:"stdClass":1:{s:1:"x";i:1;}']: emit("skip_value %s 0 0 = ROk %d" % (q(raw), len(raw)))
for raw in ["", "x", "N", 's:2:"x";', 'a:1:{s:1:"x";}', 'a:0:{i:0;i:1;}', 'O:8:"stdClass":1:{s:1:"x";}']: emit("is_error (skip_value %s 0 0) = true" % q(raw))
emit("is_error (skip_array (fun c => skip_value (bs \":0:{}\") c (max_depth + 1)) (bs \":0:{}\") 0 (max_depth + 1)) = true")
section("TestSmallTokenValidators")
for raw in ["", "N", "Nx"]: bad("validate_null", raw)
scan("validate_null", "N;", "tt")
for raw in ["0", "00{}", "0:x}", "0:{x"]: bad("validate_empty_array", raw)
scan("validate_empty_array", "0:{}", "tt")
emit("has_byte [] 0 || has_bytes (bs \"x\") (-1) 1 || has_bytes (bs \"x\") 0 (-1) = false")
section("TestStructFieldTags")
emit("tag_of X0 (fld \"Default\" \"\" TString) = Tag (bs \"Default\") false false")
emit("tag_of X0 (fld \"Named\" \"name,omitempty,string\" (TInt IInt)) = Tag (bs \"name\") true true")
emit("tag_key (tag_of X0 (fld \"Invalid\" \"bad\\name,omitempty\" (TInt IInt))) = bs \"Invalid\"")
emit("is_ignored (fld \"Ignored\" \"-\" (TInt IInt)) && is_ignored (%s) && negb (is_ignored (fld \"Default\" \"\" TString)) = true" % lower("private", INT))
for tag in ["name", "with space", "a-b", "日本語"]: emit("is_valid_tag X0 %s = true" % q(tag))
for tag in ["", "bad\\name", 'bad"name']: emit("is_valid_tag X0 %s = false" % q(tag))
n_unmarshal = n

# ---- Marshal ----
def hs(s): return "(HStr %s)" % q(s)
def hi(z): return "(HInt (%d))" % z
def hu(z): return "(HUint %d)" % z
def hst(*l): return "(HStruct %s)" % lst(l)
def cells(*l): return "Cells %s" % lst(l)
def mo(*l): return "MapObj %s" % lst(["(%s, %s)" % e for e in l])
def hp(o, i=0): return "(HPtr (Some (%d, %d)%%nat))" % (o, i)
def hsl(o, k, i=0): return "(HSlice (Some (%d, %d, %d)%%nat))" % (o, i, k)
def hm(o): return "(HMap (Some %d%%nat))" % o
def ha(t, v): return "(HIface (Some (%s, %s)))" % (t, v)
NIL = "(HPtr None)"
def harr(*l): return "(HArr %s)" % lst(l)
def hb(b): return "(HBool %s)" % ("true" if b else "false")
def writes(env, heap, t, v, want): emit("writes %s %s %s %s %s" % (lst(env), lst(heap), t, v, q(want)))
def fails(env, heap, t, v): emit("fails %s %s %s %s" % (lst(env), lst(heap), t, v))

cases = []
def case(name, env, heap, t, v, want): cases.append((name, env, heap, t, v, want))
U = struct(f("ID", tuint("U64"), "id"), f("Name", STR, "name"))
ITEM = struct(f("V", INT, "v"))
def tagged(ty, tag="value,string", name="Value"): return [struct(f(name, ty, tag))]
case("bool true", [], [], BOOL, hb(1), "b:1;")
case("*bool-true", [], [cells(hb(1))], pt(BOOL), hp(0), "b:1;")
case("bool true as string", tagged(BOOL, "b,string", "B"), [], nm(0), hst(hb(1)), 'a:1:{s:1:"b";s:4:"true";}')
case("bool false", [], [], BOOL, hb(0), "b:0;")
case("bool true as string", tagged(BOOL, "b,string", "B"), [], nm(0), hst(hb(0)), 'a:1:{s:1:"b";s:5:"false";}')
case("*bool false", [], [cells(hb(0))], pt(BOOL), hp(0), "b:0;")
case("*bool-as-string-direct", tagged(pt(BOOL)), [cells(hb(0))], nm(0), hst(hp(0)), 'a:1:{s:5:"value";s:5:"false";}')
case("*bool-as-string-indirect", [struct(f("Value", pt(BOOL), "value,string"), f("B", pt(BOOL)))], [cells(hb(0))], nm(0), hst(hp(0), NIL), 'a:2:{s:5:"value";s:5:"false";s:1:"B";N;}')
case("int8", [], [], tint("I8"), hi(7), "i:7;")
case("*int8", [], [cells(hi(-7))], pt(tint("I8")), hp(0), "i:-7;")
case("int8 as string", tagged(tint("I8")), [], nm(0), hst(hi(10)), 'a:1:{s:5:"value";s:2:"10";}')
case("int16", [], [], tint("I16"), hi(7), "i:7;")
case("*int16", [], [cells(hi(7))], pt(tint("I16")), hp(0), "i:7;")
case("int16 as string", tagged(tint("I16")), [], nm(0), hst(hi(100)), 'a:1:{s:5:"value";s:3:"100";}')
case("int32", [], [], tint("I32"), hi(7), "i:7;")
case("*int32", [], [cells(hi(9))], pt(tint("I32")), hp(0), "i:9;")
case("int32 as string", tagged(tint("I32")), [], nm(0), hst(hi(100)), 'a:1:{s:5:"value";s:3:"100";}')
case("*int32 as string", tagged(pt(tint("I32"))), [cells(hi(100))], nm(0), hst(hp(0)), 'a:1:{s:5:"value";s:3:"100";}')
for name, t, z in [("int64", "I64", 7), ("int", "IInt", 8)]: case(name, [], [], tint(t), hi(z), "i:%d;" % z)
for name, t, z in [("*int64", "I64", 10), ("*int", "IInt", 11)]: case(name, [], [cells(hi(z))], pt(tint(t)), hp(0), "i:%d;" % z)
for name, t, z in [("uint8", "U8", 7), ("uint16", "U16", 7), ("uint32", "U32", 7), ("uint64", "U64", 7777), ("uint", "UUint", 9)]: case(name, [], [], tuint(t), hu(z), "i:%d;" % z)
for name, t, z in [("*uint8", "U8", 7), ("*uint16", "U16", 7), ("*uint32", "U32", 7), ("*uint64", "U64", 7), ("*uint", "UUint", 787)]: case(name, [], [cells(hu(z))], pt(tuint(t)), hp(0), "i:%d;" % z)
case("float32", [], [], F32, "(HF32 pi32)", "d:3.14;")
case("*float32", [], [cells("HF32 pi32")], pt(F32), hp(0), "d:3.14;")
case("float64", [], [], F64, "(HF64 pi)", "d:3.14;")
case("*float64", [], [cells("HF64 f354")], pt(F64), hp(0), "d:3.54;")
case("string", [], [], STR, hs('qwer"qwer'), 's:9:"qwer"qwer";')
case("*string", [], [cells(hs('qwer"qwer'))], pt(STR), hp(0), 's:9:"qwer"qwer";')
case("simple slice", [], [cells(*map(hi, [1, 4, 6, 2, 3]))], sl(INT), hsl(0, 5), 'a:5:{i:0;i:1;i:1;i:4;i:2;i:6;i:3;i:2;i:4;i:3;}')
case("struct-slice", [ITEM], [cells(*[hst(hi(z)) for z in [6, 5, 4, 3, 2]])], sl(nm(0)), hsl(0, 5), 'a:5:{i:0;a:1:{s:1:"v";i:6;}i:1;a:1:{s:1:"v";i:5;}i:2;a:1:{s:1:"v";i:4;}i:3;a:1:{s:1:"v";i:3;}i:4;a:1:{s:1:"v";i:2;}}')
MAPPTR = [struct(f("Users", sl(nm(1)), "users"), f("Map", mp(STR, tint("I64")), "map")), ITEM]
case("struct-with-map-indirect", MAPPTR, [cells(), mo((hs("one"), hi(1)))], nm(0), hst(hsl(0, 0), hm(1)), 'a:2:{s:5:"users";a:0:{}s:3:"map";a:1:{s:3:"one";i:1;}}')
case("struct with map embed", [struct(f("Map", mp(STR, tint("I64")), "map"))], [mo((hs("one"), hi(1)))], nm(0), hst(hm(0)), 'a:1:{s:3:"map";a:1:{s:3:"one";i:1;}}')
case("empty map", [], [mo()], mp(INT, STR), hm(0), "a:0:{}")
case("nil map", [], [], mp(STR, STR), "(HMap None)", "N;")
case("uint as string", tagged(tuint("UUint")), [], nm(0), hst(hu(957123587)), 'a:1:{s:5:"value";s:9:"957123587";}')
case("uint as string 0", tagged(tuint("UUint")), [], nm(0), hst(hu(0)), 'a:1:{s:5:"value";s:1:"0";}')
case("int as string positive", tagged(INT), [], nm(0), hst(hi(957123587)), 'a:1:{s:5:"value";s:9:"957123587";}')
case("int as string 0", tagged(INT), [], nm(0), hst(hi(0)), 'a:1:{s:5:"value";s:1:"0";}')
case("int as string negative", tagged(INT), [], nm(0), hst(hi(-957123587)), 'a:1:{s:5:"value";s:10:"-957123587";}')
case("nested struct not anonymous", [struct(f("OK", BOOL), f("Item", nm(1)), f("V", INT)), ITEM], [], nm(0), hst(hb(1), hst(hi(5)), hi(9999)), 'a:3:{s:2:"OK";b:1;s:4:"Item";a:1:{s:1:"v";i:5;}s:1:"V";i:9999;}')
ALL = [struct(f("Users", sl(nm(1)), "users"), f("Obj", nm(2), "obj"), f("B", BOOL, "ok"), f("Map", mp(INT, nm(3)), "map")), U, struct(f("V", INT, "v"), f("S", STR, "a long string name replace field name")), struct(f("V", INT))]
case("struct with all", ALL, [cells(hst(hu(1), hs("sai")), hst(hu(2), hs("trim21"))), mo((hi(7), hst(hi(4))))], nm(0), hst(hsl(0, 2), hst(hi(2), hs("vvv")), hb(0), hm(1)),
     'a:4:{s:5:"users";a:2:{i:0;a:2:{s:2:"id";i:1;s:4:"name";s:3:"sai";}i:1;a:2:{s:2:"id";i:2;s:4:"name";s:6:"trim21";}}s:3:"obj";a:2:{s:1:"v";i:2;s:37:"a long string name replace field name";s:3:"vvv";}s:2:"ok";b:0;s:3:"map";a:1:{i:7;a:1:{s:1:"V";i:4;}}}')
case("nested_map", [], [mo((hi(1), hm(1))), mo((hu(4), hs("ok")))], mp(INT, mp(tuint("UUint"), STR)), hm(0), 'a:1:{i:1;a:1:{i:4;s:2:"ok";}}')
case("map[type]any(map)", [], [mo((hi(1), ha(mp(tuint("UUint"), STR), hm(1)))), mo((hu(4), hs("ok")))], mp(INT, ANY), hm(0), 'a:1:{i:1;a:1:{i:4;s:2:"ok";}}')
case("map[type]any(slice)", [], [mo((hi(1), ha(sl(INT), hsl(1, 3)))), cells(hi(3), hi(1), hi(4))], mp(INT, ANY), hm(0), 'a:1:{i:1;a:3:{i:0;i:3;i:1;i:1;i:2;i:4;}}')
case("map[type]any(struct)", [U], [mo((hi(1), ha(nm(0), hst(hu(0), hs("")))))], mp(INT, ANY), hm(0), 'a:1:{i:1;a:2:{s:2:"id";i:0;s:4:"name";s:0:"";}}')
case("ignore struct field", [struct(f("V", INT), f("Ignored", STR, "-"))], [], nm(0), hst(hi(3), hs("vvv")), 'a:1:{s:1:"V";i:3;}')
case("private field", [struct(lower("b", BOOL), f("D", INT))], [], nm(0), hst(hb(0), hi(10)), 'a:1:{s:1:"D";i:10;}')
case("omitempty", [struct(f("V", STR, ",omitempty"), f("D", STR, ",omitempty"))], [], nm(0), hst(hs(""), hs("d")), 'a:1:{s:1:"D";s:1:"d";}')
case("omitempty-ptr", [struct(f("V", pt(STR), ",omitempty"), f("D", pt(STR), ",omitempty"))], [cells(hs(""))], nm(0), hst(NIL, hp(0)), 'a:1:{s:1:"D";s:0:"";}')
def run_cases(cs, what, ptr=True):
    section(what, "each value by itself, inside an interface in a struct" + (", and behind a pointer to an interface" if ptr else ""))
    for name, env, heap, t, v, want in cs:
        k = len(env)
        writes(env, heap, t, v, want)
        writes(env + [struct(f("Name", STR), f("Data", ANY), f("Expected", STR, "-"))], heap, nm(k), hst(hs(name), ha(t, v), hs(want)),
               'a:2:{s:4:"Name";s:%d:"%s";s:4:"Data";%s}' % (len(name), name, want))
        if ptr: writes(env, heap + [cells(ha(t, v))], pt(ANY), hp(len(heap)), want)
run_cases(cases, "testCase TestMarshal_concrete_types TestMarshal_interface TestMarshal_interface_ptr")

section("TestMarshal_int_as_string")
for z, s in [(-104, "-104"), (1040, "1040"), (0, "0")]: writes(tagged(INT, "i,string", "I"), [], nm(0), hst(hi(z)), 'a:1:{s:1:"i";s:%d:"%s";}' % (len(s), s))
writes(tagged(pt(INT), "i,string", "I"), [cells(hi(0)), cells(hst(hp(0)))], pt(nm(0)), hp(1), 'a:1:{s:1:"i";s:1:"0";}')
writes([struct(f("II", pt(INT), "ii,string,omitempty"), f("I", pt(INT), "i,string"))], [cells(hi(0)), cells(hst(NIL, hp(0)))], pt(nm(0)), hp(1), 'a:1:{s:1:"i";s:1:"0";}')
writes([struct(f("II", pt(INT), "ii,string"), f("I", pt(INT), "i,string"))], [cells(hi(0)), cells(hst(NIL, hp(0)))], pt(nm(0)), hp(1), 'a:2:{s:2:"ii";N;s:1:"i";s:1:"0";}')
section("TestMarshal_bool_as_string")
writes(tagged(BOOL, ",string", "B"), [], nm(0), hst(hb(1)), 'a:1:{s:1:"B";s:4:"true";}')
writes(tagged(BOOL, ",string", "B"), [], nm(0), hst(hb(0)), 'a:1:{s:1:"B";s:5:"false";}')
section("TestMarshal_float32_as_string TestMarshal_float64_as_string TestMarshal_float64_as_string_reflect")
for ty, c, p, one, m in [(F32, "HF32", "pi32", "one", "minus_pi32"), (F64, "HF64", "pi", "one", "minus_pi")]:
    for x, s in [(p, "3.14"), (one, "1"), (m, "-3.14")]:
        writes(tagged(ty, "f,string", "F"), [], nm(0), hst("%s %s" % (c, x)), 'a:1:{s:1:"f";s:%d:"%s";}' % (len(s), s))
section("TestMarshal_ptr")
AB = lambda a="a", b="b": [struct(f("A", pt(INT), a), f("B", pt(INT), b))]
writes(AB(), [cells(hi(50))], nm(0), hst(NIL, hp(0)), 'a:2:{s:1:"a";N;s:1:"b";i:50;}')
writes(AB("a", "b,omitempty"), [cells(hi(50))], nm(0), hst(hp(0), NIL), 'a:1:{s:1:"a";i:50;}')
V = lambda t, tag="value": [struct(f("Value", t, tag))]
writes(V(pt(INT)), [cells(hi(50))], nm(0), hst(hp(0)), 'a:1:{s:5:"value";i:50;}')
writes(V(pt(INT)), [], nm(0), hst(NIL), 'a:1:{s:5:"value";N;}')
writes(V(pt(STR)), [cells(hs("abcdefg"))], nm(0), hst(hp(0)), 'a:1:{s:5:"value";s:7:"abcdefg";}')
writes([struct(f("Value", pt(STR), "value"), f("D", pt(INT), "d,omitempty"))], [cells(hs("abcdefg")), cells(hst(hp(0), NIL))], pt(nm(0)), hp(1), 'a:1:{s:5:"value";s:7:"abcdefg";}')
D2 = [struct(f("Value", INT, "value"), f("ID", tuint("U32"), "id"))]
writes(D2, [cells(hst(hi(0), hu(0)))], pt(nm(0)), hp(0), 'a:2:{s:5:"value";i:0;s:2:"id";i:0;}')
writes(D2, [], pt(nm(0)), NIL, 'N;')
BV = [struct(f("B", pt(INT), "b"), f("Value", pt(nm(1)), "value")), U]
writes(BV, [cells(hi(20))], nm(0), hst(hp(0), NIL), 'a:2:{s:1:"b";i:20;s:5:"value";N;}')
writes(V(pt(nm(1))) + [U], [], nm(0), hst(NIL), 'a:1:{s:5:"value";N;}')
one = cells(hst(hu(4), hs("one")))
writes(V(pt(nm(1))) + [U], [one], nm(0), hst(hp(0)), 'a:1:{s:5:"value";a:2:{s:2:"id";i:4;s:4:"name";s:3:"one";}}')
writes(BV, [one], nm(0), hst(NIL, hp(0)), 'a:2:{s:1:"b";N;s:5:"value";a:2:{s:2:"id";i:4;s:4:"name";s:3:"one";}}')
five = cells(harr(*map(hi, [1, 6, 4, 7, 9])))
writes(V(pt(ar(5, INT))), [], nm(0), hst(NIL), 'a:1:{s:5:"value";N;}')
writes([struct(f("Value", pt(ar(5, INT)), "value"), f("B", pt(BOOL), "b"))], [cells(hb(1))], nm(0), hst(NIL, hp(0)), 'a:2:{s:5:"value";N;s:1:"b";b:1;}')
for tag in ["value,omitempty", "value"]: writes(V(pt(ar(5, INT)), tag), [five], nm(0), hst(hp(0)), 'a:1:{s:5:"value";a:5:{i:0;i:1;i:1;i:6;i:2;i:4;i:3;i:7;i:4;i:9;}}')
for tag in ["value,omitempty", "value"]:
    writes(V(pt(sl(STR)), tag), [cells(*map(hs, "abcdefg")), cells(hsl(0, 7))], nm(0), hst(hp(1)), 'a:1:{s:5:"value";a:7:{i:0;s:1:"a";i:1;s:1:"b";i:2;s:1:"c";i:3;s:1:"d";i:4;s:1:"e";i:5;s:1:"f";i:6;s:1:"g";}}')
writes(V(pt(sl(STR))), [], nm(0), hst(NIL), 'a:1:{s:5:"value";N;}')
writes(V(pt(sl(STR))), [cells(hs("1"), hs("2")), cells(hsl(0, 2))], nm(0), hst(hp(1)), 'a:1:{s:5:"value";a:2:{i:0;s:1:"1";i:1;s:1:"2";}}')
writes(V(pt(STR), "value,omitempty"), [cells(hs("abcdefg"))], nm(0), hst(hp(0)), 'a:1:{s:5:"value";s:7:"abcdefg";}')
MII = mp(INT, INT)
m12 = [mo((hi(1), hi(2))), cells(hm(0))]
writes(V(pt(MII)), [], nm(0), hst(NIL), 'a:1:{s:5:"value";N;}')
writes([], m12, pt(MII), hp(1), 'a:1:{i:1;i:2;}')
writes(V(pt(MII), "value,omitempty"), m12, nm(0), hst(hp(1)), 'a:1:{s:5:"value";a:1:{i:1;i:2;}}')
writes(V(pt(MII), "value,omitempty"), [], nm(0), hst(NIL), 'a:0:{}')
writes([struct(f("Value", pt(MII), "value"), f("Bool", pt(BOOL), "b"))], [], nm(0), hst(NIL, NIL), 'a:2:{s:5:"value";N;s:1:"b";N;}')
writes([struct(f("Value", pt(MII), "value,omitempty"), f("Bool", pt(BOOL), "b"))], m12, nm(0), hst(hp(1), NIL), 'a:2:{s:5:"value";a:1:{i:1;i:2;}s:1:"b";N;}')
writes([], [], pt(MII), NIL, 'N;')
writes(V(pt(INT)), [cells(hi(644))], nm(0), hst(hp(0)), 'a:1:{s:5:"value";i:644;}')
u3 = [cells(hu(8)), cells(hp(0)), cells(hp(1))]
fails(V(pt(pt(pt(tuint("UUint"))))), u3, nm(0), hst(hp(2)))
writes(V(ANY), [cells(hu(8)), cells(hp(0)), cells(ha(pt(pt(tuint("UUint"))), hp(1)))], nm(0), hst(ha(pt(ANY), hp(2))), 'a:1:{s:5:"value";i:8;}')
section("TestMarshal_map")
MO = [struct(f("Map", mp(STR, tint("I64")), "map"))]
writes(MO, [], nm(0), hst("HMap None"), 'a:1:{s:3:"map";N;}')
abc = mo((hs("abcdef"), hi(1)))
writes(MO, [abc], nm(0), hst(hm(0)), 'a:1:{s:3:"map";a:1:{s:6:"abcdef";i:1;}}')
writes(MAPPTR, [abc], nm(0), hst("HSlice None", hm(0)), 'a:2:{s:5:"users";N;s:3:"map";a:1:{s:6:"abcdef";i:1;}}')
section("TestMarshal_interface_with_method")
writes(V(ANY) + [struct()], [], nm(0), hst(ha(nm(1), "HStruct []")), 'a:1:{s:5:"value";a:0:{}}')
section("TestMarshal_anonymous_field")
fails([struct(emb("N", nm(1)), f("C", INT)), struct(f("A", INT), f("B", INT))], [], nm(0), hst(hst(hi(3), hi(2)), hi(1)))
section("TestRecursivePanic")
writes([struct(f("Name", STR), f("E", sl(nm(0))))], [cells(hst(hs("BB"), hsl(1, 1))), cells(hst(hs("C C D D E E F F"), "HSlice None"))], nm(0), hst(hs("hello"), hsl(0, 1)),
       'a:2:{s:4:"Name";s:5:"hello";s:1:"E";a:1:{i:0;a:2:{s:4:"Name";s:2:"BB";s:1:"E";a:1:{i:0;a:2:{s:4:"Name";s:15:"C C D D E E F F";s:1:"E";N;}}}}}')
section("TestUserMarshaler", "what MarshalPHP returns is given by [X0]")
writes([struct(f("T", nm(1))), "Decl (UStruct [%s]) ValueRecv false" % lower("t", STR)], [], nm(0), hst(hst(hs("2024-07-16T01:02:03+08:00"))), 'a:1:{s:1:"T";s:25:"2024-07-16T01:02:03+08:00";}')
g = []
def gcase(*a): g.append(a)
gcase("generic[int]", [struct(f("Value", INT))], [], nm(0), hst(hi(1)), 'a:1:{s:5:"Value";i:1;}')
gcase("generic[struct]", [struct(f("Value", nm(1))), U], [], nm(0), hst(hst(hu(0), hs(""))), 'a:1:{s:5:"Value";a:2:{s:2:"id";i:0;s:4:"name";s:0:"";}}')
gcase("generic[map]", [struct(f("Value", mp(STR, INT)))], [mo((hs("one"), hi(1)))], nm(0), hst(hm(0)), 'a:1:{s:5:"Value";a:1:{s:3:"one";i:1;}}')
gcase("generic[slice]", [struct(f("Value", sl(STR)))], [cells(hs("hello"), hs("world"))], nm(0), hst(hsl(0, 2)), 'a:1:{s:5:"Value";a:2:{i:0;s:5:"hello";i:1;s:5:"world";}}')
gcase("generic2[slice]", [struct(f("B", BOOL), f("Value", sl(STR)))], [cells(hs("hello"), hs("world"))], nm(0), hst(hb(0), hsl(0, 2)), 'a:2:{s:1:"B";b:0;s:5:"Value";a:2:{i:0;s:5:"hello";i:1;s:5:"world";}}')
run_cases(g, "go118TestCase TestMarshal_go118_concrete_types TestMarshal_go118_interface", False)
section("TestMarshal_uint_as_string TestMarshal_uint_as_string_omitempty")
ks = [("A", "U8", 2), ("B", "U16", 3), ("C", "U32", 0), ("D", "U64", 52), ("E", "UUint", 110)]
writes([struct(*[f(a, tuint(k), a.lower() + ",string") for a, k, _ in ks])], [cells(hst(*[hu(z) for _, _, z in ks]))], pt(nm(0)), hp(0),
       'a:5:{s:1:"a";s:1:"2";s:1:"b";s:1:"3";s:1:"c";s:1:"0";s:1:"d";s:2:"52";s:1:"e";s:3:"110";}')
for z in [0, 1040]: writes(tagged(tuint("UUint"), "i,string", "I"), [], nm(0), hst(hu(z)), 'a:1:{s:1:"i";s:%d:"%d";}' % (len(str(z)), z))
writes([struct(*[f(a, tuint(k), a.lower() + ",string,omitempty") for a, k, _ in ks])], [cells(hst(*[hu(0)] * 5))], pt(nm(0)), hp(0), 'a:0:{}')
section("TestMarshal_uint_as_string_ptr_omitempty")
writes([struct(*[f(a, pt(tuint(k)), a.lower() + ",string,omitempty") for a, k, _ in ks])], [cells(*[hu(0)] * 5), cells(hst(*[hp(0, i) for i in range(5)]))], pt(nm(0)), hp(1),
       'a:5:{' + "".join('s:1:"%s";s:1:"0";' % a.lower() for a, _, _ in ks) + '}')
for a, k, _ in ks: writes(tagged(pt(tuint(k)), a.lower() + ",string,omitempty", a), [cells(hu(0)), cells(hst(hp(0)))], pt(nm(0)), hp(1), 'a:1:{s:1:"%s";s:1:"0";}' % a.lower())
section("TestMarshalBool_ptr_as_string")
for b, s in [(0, "false"), (1, "true")]:
    writes(tagged(pt(BOOL)), [cells(hb(b)), cells(hst(hp(0)))], pt(nm(0)), hp(1), 'a:1:{s:5:"value";s:%d:"%s";}' % (len(s), s))
    writes([struct(f("Value", pt(BOOL), "value,string"), f("B", pt(BOOL)))], [cells(hb(b)), cells(hst(hp(0), NIL))], pt(nm(0)), hp(1), 'a:2:{s:5:"value";s:%d:"%s";s:1:"B";N;}' % (len(s), s))
section("TestMarshal_array_map TestMarshal_Array_nil")
writes([], [mo((hi(-3), hu(1))), mo((hi(-1), hu(1)))], ar(5, mp(INT, tuint("UUint"))), harr(hm(0), "HMap None", hm(1), "HMap None", "HMap None"), 'a:5:{i:0;a:1:{i:-3;i:1;}i:1;N;i:2;a:1:{i:-1;i:1;}i:3;N;i:4;N;}')
writes([], [], ar(5, INT), harr(*[hi(0)] * 5), 'a:5:{i:0;i:0;i:1;i:0;i:2;i:0;i:3;i:0;i:4;i:0;}')
section("TestMarshalNil TestMarshalNamedFloat32")
emit('snd (marshal X0 [] [] in_order 9 st0 None) = ROk (bs "N;")')
writes([named(F32)], [], nm(0), "(HF32 f35)", "d:3.5;")
writes([struct(f("Value", nm(1), "value,string")), named(F32)], [], nm(0), hst("HF32 f35"), 'a:1:{s:5:"value";s:3:"3.5";}')
section("TestMarshalRejectsRecursiveValues")
fails([], [mo((hs("self"), ha(mp(STR, ANY), hm(0))))], mp(STR, ANY), hm(0))
fails([], [cells(ha(sl(ANY), hsl(0, 1)))], sl(ANY), hsl(0, 1))
fails_deep = lambda env, heap, t, v: emit("fails_deep %s %s %s %s" % (lst(env), lst(heap), t, v))
fails_deep([struct(f("Next", pt(nm(0))))], [cells(hst(hp(0)))], pt(nm(0)), hp(0))
fails_deep([named(mp(STR, nm(0)))], [mo((hs("self"), hm(0)))], nm(0), hm(0))
fails_deep([named(sl(nm(0)))], [cells(hsl(0, 1))], nm(0), hsl(0, 1))
section("TestPHPFloatSpecialValues")
writes([], [], F64, "(HF64 (S754_infinity false))", "d:INF;")
writes([], [], F64, "(HF64 (S754_infinity true))", "d:-INF;")
writes([], [], F64, "(HF64 S754_nan)", "d:NAN;")
section("ExampleMarshal")
writes([struct(f("Users", sl(nm(1)), "users,omitempty"), f("Obj", nm(2), "obj"), f("Ignored", BOOL, "-")), struct(f("ID", tuint("U32"), "id,string"), f("Name", STR, "name")), struct(f("V", INT, "v"), f("S", STR, "a long string name replace field name"))],
       [cells(hst(hu(1), hs("sai")), hst(hu(2), hs("trim21")))], nm(0), hst(hsl(0, 2), hst(hi(2), hs("vvv")), hb(0)),
       'a:2:{s:5:"users";a:2:{i:0;a:2:{s:2:"id";s:1:"1";s:4:"name";s:3:"sai";}i:1;a:2:{s:2:"id";s:1:"2";s:4:"name";s:6:"trim21";}}s:3:"obj";a:2:{s:1:"v";i:2;s:37:"a long string name replace field name";s:3:"vvv";}}')

section("TestMarshal_int_ptr_string")
writes(tagged(pt(INT), "i,string", "I"), [cells(hi(0)), cells(hst(hp(0)))], pt(nm(0)), hp(1), 'a:1:{s:1:"i";s:1:"0";}')
section("TestMarshalScalarTypes")
writes([], [], BOOL, hb(1), "b:1;"); writes([], [], BOOL, hb(0), "b:0;")
for k, z in [("I8", -8), ("I16", -16), ("I32", -32), ("I64", -64), ("IInt", -1)]: writes([], [], tint(k), hi(z), "i:%d;" % z)
for k, z in [("U8", 8), ("U16", 16), ("U32", 32), ("U64", 64), ("UUint", 1)]: writes([], [], tuint(k), hu(z), "i:%d;" % z)
writes([], [], F32, "(HF32 f35)", "d:3.5;"); writes([], [], F64, "(HF64 minus_f45)", "d:-4.5;"); writes([], [], STR, hs("foo"), 's:3:"foo";')
writes([], [cells(*[hu(ord(c)) for c in "foo"])], BYTES, hsl(0, 3), 's:3:"foo";')
section("TestMarshalFloatFormats")
for t, c, v, want in [(F32, "HF32", "tiny32", "1e-07"), (F64, "HF64", "tiny", "1e-07"), (F64, "HF64", "huge", "1e+21"), (F64, "HF64", "(S754_zero false)", "0")]: writes([], [], t, "(%s %s)" % (c, v), "d:%s;" % want)
section("TestMarshalCompositeTypes", "with the whole text")
MSI = mp(STR, INT)
x1 = mo((hs("x"), hi(1)))
writes([], [], ar(2, INT), harr(hi(1), hi(2)), "a:2:{i:0;i:1;i:1;i:2;}")
writes([], [cells(hs("a"), hs("b"))], sl(STR), hsl(0, 2), 'a:2:{i:0;s:1:"a";i:1;s:1:"b";}')
writes([], [x1, cells(hm(0))], sl(MSI), hsl(1, 1), 'a:1:{i:0;a:1:{s:1:"x";i:1;}}')
writes([], [x1], MSI, hm(0), 'a:1:{s:1:"x";i:1;}')
writes([], [mo((hi(1), hs("x")))], mp(INT, STR), hm(0), 'a:1:{i:1;s:1:"x";}')
writes([], [mo((hu(1), hi(2)))], mp(tuint("UUint"), INT), hm(0), 'a:1:{i:1;i:2;}')
writes([], [mo((hs("outer"), hm(1))), mo((hs("inner"), hi(1)))], mp(STR, MSI), hm(0), 'a:1:{s:5:"outer";a:1:{s:5:"inner";i:1;}}')
for t, v in [(sl(INT), "(HSlice None)"), (MSI, "(HMap None)"), (pt(INT), NIL)]: writes([], [], t, v, "N;")
section("TestMarshalPointers", "with the whole text")
for t, v, want in [(BOOL, hb(1), "b:1;"), (INT, hi(1), "i:1;"), (tuint("UUint"), hu(2), "i:2;"), (F32, "HF32 f35", "d:3.5;"), (F64, "HF64 f45", "d:4.5;"), (STR, hs("x"), 's:1:"x";')]: writes([], [cells(v)], pt(t), hp(0), want)
writes([], [x1, cells(hm(0))], pt(MSI), hp(1), 'a:1:{s:1:"x";i:1;}')
writes([], [cells(hi(1)), cells(hsl(0, 1))], pt(sl(INT)), hp(1), "a:1:{i:0;i:1;}")
section("TestMarshalStructTags", "with the whole text")
writes([struct(f("Bool", BOOL, "bool,string"), *[f("Int" + str(k), tint("I%d" % k), "int%d,string" % k) for k in [8, 16, 32, 64]], f("Int", INT, "int,string"), f("Uint", tuint("UUint"), "uint,string"),
               f("Float32", F32, "float32,string"), f("Float64", F64, "float64,string"), f("Any", ANY, "any,string"), f("Ptr", pt(INT), "ptr,omitempty"), f("Omit", STR, "omit,omitempty"), f("Ignore", STR, "-"), lower("private", STR))],
       [], nm(0), hst(hb(1), hi(-8), hi(-16), hi(-32), hi(-64), hi(-1), hu(2), "HF32 f35", "HF64 f45", ha(tint("I64"), hi(5)), NIL, hs(""), hs(""), hs("")),
       'a:10:{s:4:"bool";s:4:"true";s:4:"int8";s:2:"-8";s:5:"int16";s:3:"-16";s:5:"int32";s:3:"-32";s:5:"int64";s:3:"-64";s:3:"int";s:2:"-1";s:4:"uint";s:1:"2";s:7:"float32";s:3:"3.5";s:7:"float64";s:3:"4.5";s:3:"any";s:1:"5";}')
section("TestMarshalInterfaceValues", "with the whole text")
def held(heap, t, v, want, env=()): writes(V(ANY) + list(env), heap, nm(0), hst(ha(t, v)), 'a:1:{s:5:"value";%s}' % want)
writes(V(ANY), [], nm(0), hst("HIface None"), 'a:1:{s:5:"value";N;}')
held([], BOOL, hb(1), "b:1;")
for k, z in [("U8", 1), ("U16", 2), ("U32", 3), ("U64", 4), ("UUint", 5)]: held([], tuint(k), hu(z), "i:%d;" % z)
for k, z in [("I8", -1), ("I16", -2), ("I32", -3), ("I64", -4), ("IInt", -5)]: held([], tint(k), hi(z), "i:%d;" % z)
held([], F32, "HF32 f35", "d:3.5;"); held([], F64, "HF64 f45", "d:4.5;"); held([], STR, hs("x"), 's:1:"x";')
held([cells(ha(INT, hi(1)), ha(STR, hs("x")))], sl(ANY), hsl(0, 2), 'a:2:{i:0;i:1;i:1;s:1:"x";}')
held([cells(hi(1), hi(2))], sl(INT), hsl(0, 2), 'a:2:{i:0;i:1;i:1;i:2;}')
held([cells()], sl(INT), hsl(0, 0), 'a:0:{}')
held([mo((hs("x"), ha(INT, hi(1))))], mp(STR, ANY), hm(0), 'a:1:{s:1:"x";i:1;}')
held([x1], MSI, hm(0), 'a:1:{s:1:"x";i:1;}')
held([mo()], MSI, hm(0), 'a:0:{}')
held([], nm(1), hst(hi(1)), 'a:1:{s:1:"X";i:1;}', S)
held([cells(hi(0)), cells(ha(pt(INT), hp(0)))], pt(ANY), hp(1), "i:0;")
section("TestMarshalInterfaceValuesAsString", "with the whole text")
def held_s(t, v, want): writes(V(ANY, "value,string"), [], nm(0), hst(ha(t, v)), 'a:1:{s:5:"value";s:%d:"%s";}' % (len(want), want))
held_s(BOOL, hb(1), "true")
for k, z in [("U8", 1), ("U16", 2), ("U32", 3), ("U64", 4), ("UUint", 5)]: held_s(tuint(k), hu(z), str(z))
for k, z in [("I8", -1), ("I16", -2), ("I32", -3), ("I64", -4), ("IInt", -5)]: held_s(tint(k), hi(z), str(z))
held_s(F32, "HF32 f35", "3.5"); held_s(F64, "HF64 f45", "4.5")
fails(V(ANY, "value,string"), [cells(hi(1))], nm(0), hst(ha(sl(INT), hsl(0, 1))))
section("TestMarshalCustomMarshaler", "what MarshalPHP returns is given by [X0]")
TM = "Decl (UStruct [%s]) ValueRecv false" % lower("err", BOOL)
writes([TM], [], nm(0), hst(hb(0)), "i:7;")
fails([TM], [], nm(0), hst(hb(1)))
section("TestMarshalErrors")
fails([], [], "TOther", "(HOther false)")
fails([], [mo((hb(1), hi(1)))], mp(BOOL, INT), hm(0))
fails([struct(f("Value", ANY))], [], nm(0), hst(ha("TOther", "HOther false")))
fails([], [cells(hi(1)), cells(hp(0))], pt(pt(INT)), hp(1))
fails([struct(f("Value", sl(INT), "value,string"))], [], nm(0), hst("HSlice None"))
section("TestEncoderHelpers")
for z, d in [(0, 1), (-1, 2), (9, 1), (10, 2), (-10, 3)]: emit("int_digits (%d) = %d" % (z, d))
for z, d in [(0, 1), (9, 1), (10, 2)]: emit("uint_digits %d = %d" % (z, d))
for t, v in [(BOOL, hb(0)), (INT, hi(0)), (tuint("UUint"), hu(0)), (F64, "HF64 f45"), (STR, hs(""))]: emit("exists b, snd (marshal X0 %s [] in_order 9 st0 (Some (TName 0, %s))) = ROk b" % (lst(V(t, "value,string")), hst(v)))

head = '''(** The tests of the repository, run on the model.

    These are no proofs of properties.  They are here to show that the model is
    one of this code: the tests of /repo that check what Marshal, Unmarshal and
    the functions behind them return, with the results expected there.
    Written by tools/repotests.py. *)
From Coq Require Import Strings.String Strings.Byte ZArith List Bool Floats.SpecFloat.
From Verif Require Import Base GoTypes Strconv Tags Scan Decode Unmarshal Memory EncCompile Encode.
Import ListNotations.
Open Scope Z_scope.

Definition pi : spec_float := S754_finite false 7070651414971679 (-51).
Definition minus_pi : spec_float := S754_finite true 7070651414971679 (-51).
Definition pi32 : spec_float := S754_finite false 13170115 (-22).
Definition minus_pi32 : spec_float := S754_finite true 13170115 (-22).
Definition f354 : spec_float := S754_finite false 7971371340445778 (-51).
Definition f45 : spec_float := S754_finite false 5066549580791808 (-50).
Definition minus_f45 : spec_float := S754_finite true 5066549580791808 (-50).
Definition f15 : spec_float := S754_finite false 6755399441055744 (-52).
Definition tiny : spec_float := S754_finite false 7555786372591432 (-76).
Definition tiny32 : spec_float := S754_finite false 14073749 (-47).
Definition huge : spec_float := S754_finite false 7629394531250000 17.
Definition googol : spec_float := S754_finite false 5147557589468029 280.
Definition f35 : spec_float := S754_finite false 14680064 (-22).
Definition one : spec_float := S754_finite false 4503599627370496 (-52).
Definition large : spec_float := S754_finite false 4961102261649408 (-25).
Definition same_float (a b : spec_float) : bool :=
  match SFcompare a b with Some Eq => true | _ => false end.
(** What strconv does with the numbers in the tests; a MarshalPHP method that
    writes its string, and UnmarshalPHP methods that keep their argument. *)
Definition X0 : Ext := {|
  x_fmt := fun _ _ x =>
    if same_float x pi then bs "3.14" else if same_float x minus_pi then bs "-3.14"
    else if same_float x pi32 then bs "3.14" else if same_float x minus_pi32 then bs "-3.14"
    else if same_float x f354 then bs "3.54" else if same_float x f35 then bs "3.5" else if same_float x f45 then bs "4.5"
    else if same_float x minus_f45 then bs "-4.5" else if same_float x tiny then bs "1e-07"
    else if same_float x tiny32 then bs "1e-07" else if same_float x huge then bs "1e+21"
    else if same_float x (S754_zero false) then bs "0" else bs "1";
  x_parse := fun b =>
    if bytes_eqb b (bs "3.14") then Some pi else if bytes_eqb b (bs "-3.14") then Some minus_pi
    else if bytes_eqb b (bs "3.5") then Some f35 else if bytes_eqb b (bs "4.5") then Some f45
    else if bytes_eqb b (bs "-4.5") then Some minus_f45 else if bytes_eqb b (bs "1.5") then Some f15
    else if bytes_eqb b (bs "1e100") then Some googol
    else if bytes_eqb b (bs "1") then Some one else if bytes_eqb b (bs "147852369") then Some large
    else if bytes_eqb b (bs "INF") then Some (S754_infinity false) else if bytes_eqb b (bs "-INF") then Some (S754_infinity true)
    else if bytes_eqb b (bs "NAN") then Some S754_nan else None;
  x_letter := fun r => (12288 <=? r)%N;
  x_unmarshal := fun n b v => match v with VStr _ => (VStr b, true) | VBool _ => (v, false) | _ => (vbytes b, true) end;
  x_unquote := fun _ => None;
  x_slots := fun _ n => n <? 2 ^ 40;
  x_marshal := fun _ _ _ v => match v with HStruct [HStr s] => ROk (out_string s) | HStruct [HBool false] => ROk (bs "i:7;") | _ => RErr EUser end;
  x_addr := fun p => match p with ACell o i => 4096 * Z.of_nat o + Z.of_nat i | AMap o => 4096 * Z.of_nat o end |}.
Definition in_order (n : nat) (m : list (hval * hval)) : list (hval * hval) := m.
Definition fld (name tag : string) (t : gty) : field := Field (bs name) true false (bs tag) t.

Definition is_error {A} (r : R A) : bool := match r with RErr _ => true | _ => false end.

(** var v T; err := Unmarshal(data, &v) *)
Definition reads (E : env) (t : gty) (data : bytes) (v : gval) : Prop :=
  unmarshal X0 E 30 data (TgPtr t (zero E t)) = (v, ROk tt).
Definition accepts (E : env) (t : gty) (data : bytes) : Prop := exists v, reads E t data v.
Definition refused (E : env) (t : gty) (data : bytes) : bool :=
  match snd (unmarshal X0 E 30 data (TgPtr t (zero E t))) with RErr _ => true | _ => false end.
Definition refuses (E : env) (t : gty) (data : bytes) : Prop := refused E t data = true.
(** b, err := Marshal(v) *)
Definition writes (E : env) (H : heap) (t : gty) (v : hval) (b : bytes) : Prop :=
  snd (marshal X0 E H in_order 40 st0 (Some (t, v))) = ROk b.
Definition failed (E : env) (H : heap) (fuel : nat) (t : gty) (v : hval) : bool :=
  match snd (marshal X0 E H in_order fuel st0 (Some (t, v))) with RErr _ => true | _ => false end.
Definition fails (E : env) (H : heap) (t : gty) (v : hval) : Prop := failed E H 40 t v = true.
(** these fail from the 1001st level on only *)
Definition fails_deep (E : env) (H : heap) (t : gty) (v : hval) : Prop := failed E H (Z.to_nat 4100) t v = true.
Ltac run := first [vm_compute; reflexivity | eexists; vm_compute; reflexivity].
'''
here = os.path.dirname(os.path.abspath(__file__))
with open(os.path.join(here, "../rocq/theories/RepoTests.v"), "w", encoding="utf-8") as fh:
    fh.write(head + "\n".join(out) + "\n")
print(n_unmarshal, n - n_unmarshal)
