#!/usr/bin/env python3
"""Translate unit-tests/testparser.cpp and testprinter.cpp into examples about the model.

usage: gentext.py REPO OUT.v [--list]"""
import re, sys
import gen
from gen import Skip, P, lex, body, split_top, strip_comments

HDR = r"""(** unit-tests/testparser.cpp and testprinter.cpp, run in the model.  Generated by conformance/gentext.py: do
    not edit.  Tests of the model, not proofs of properties.  For floating point numbers the tests check that
    one is parsed, not its value. *)
From Verif Require Import RefFloat ParserModel%s.
From Coq Require Import QArith ZArith List String Ascii.
Import ListNotations.
From Verif Require Import Run.
Open Scope Z_scope.
Open Scope list_scope.

Definition passes (r : res (list bool)) : bool := match r with Ok l _ => forallb id l | _ => false end.
Definition frq (p q : Z) : Q := match qinv (ofZ q) with Some i => qmul (ofZ p) i | None => 0%%Q end.
Definition bytes (l : list nat) : text := map ascii_of_nat l.
Definition sameU (a b : expr) : bool := if isUndefined a then isUndefined b else isEqual a b.
Definition runTree (t : option ptree) : res expr :=
  match t with
  | None => ret Undef
  | Some p => match toTerm p with Some u => build W0 40 u | None => UB "floating point number"%%string end
  end.
Definition parses (s : text) (expected : expr) (ok whole : bool) : res bool :=
  match parseFrom s with
  | Parsed r => e <- runTree (value r) ;; ret (sameU expected e && Bool.eqb ok (success r) && Bool.eqb whole (matchedWholeString r))
  | _ => ret false
  end.
Definition parsesFloat (s : text) : res bool :=
  match parseFrom s with
  | Parsed (mkResult (Some (PFloat _)) true true) | Parsed (mkResult (Some (PNeg (PFloat _))) true true) => ret true
  | _ => ret false
  end.
"""

ESC = {'n': 10, 't': 9, 'a': 7, '\\': 92, '"': 34}
def cbytes(s):
    out, i = [], 0
    while i < len(s):
        if s[i] == '\\' and s[i+1] == 'u': out += list(chr(int(s[i+2:i+6], 16)).encode()); i += 6
        elif s[i] == '\\': out.append(ESC[s[i+1]]); i += 2
        else: out += list(s[i].encode()); i += 1
    return '(bytes [%s]%%nat)' % '; '.join(map(str, out))

class T(gen.G):
    def text(self, a):
        if a[0] == 'str': return cbytes(a[1])
        if a[0] == 'id' and self.env.get(a[1], ('', ''))[0] == 's': return cbytes(self.env[a[1]][1])
        if a[0] == 'call' and a[1] == 'std::to_string': return cbytes(str(eval(self.z(self.g(a[2][0])))))
        if a[0] == 'call' and a[1] == 'std::string_view': return self.text(a[2][0])
        raise Skip('text')
    def e(self, v):
        if v[0] == 'float': raise Skip('float')
        return super().e(v)
    def call(self, f, args):
        if f == 'parseFrom': return ('p', self.text(args[0]))
        if f == 'Numeric::create' and args[0][0] in ('num', 'un') and re.search(r'[.e]', str(args[0][-1])): return ('float', '')
        if f == 'Int' and args[0][0] == 'id' and self.env[args[0][1]][0] == 's': return ('z', self.env[args[0][1]][1])
        if f in ('Symbol::create', 'Symbol::createPositive') and args[0][0] == 'id' and self.env.get(args[0][1], ('',))[0] in ('s', 'name'):
            v = self.env[args[0][1]]
            n = 'nm "%s"%%string' % v[1] if v[0] == 's' else v[1]
            return ('e', '(Sym (%s) %s)' % (n, 'true' if 'Pos' in f else 'false'))
        if f in ('Symbol::create', 'Symbol::createPositive') and args[0][0] == 'call' and args[0][1] == 'Name':
            return ('e', '(Sym (%s) %s)' % (self.name(args[0][2]), 'true' if 'Pos' in f else 'false'))
        return super().call(f, args)
    def name(self, args):
        if len(args) == 1 and args[0][0] == 'list': args = args[0][1]
        xs = [a[1] for a in args] + [''] * 3
        return 'mkName "%s" "%s" "%s"' % tuple(xs[:3])
    def printArg(self, args):
        cs = 'UnicodeSet'
        if len(args) == 2:
            cs = 'AsciiSet'; args = args[1:]
        v = self.g(args[0])
        if v[0] == 'q': v = ('e', '(Num %s)' % v[1])
        return cs, self.e(v)

def stmt(g, s):
    s = re.sub(r'\s+', ' ', s) if '"' not in s else s
    m = re.match(r'^(check\w*)\s*\((.*)\)$', s, re.S)
    if m:
        a = P(lex(m.group(2) + ')')).args(')')
        ex, r = a[0], g.g(a[1])
        if r[0] != 'p': raise Skip('result')
        ok = whole = 'true'
        if m.group(1) == 'check':
            ex, o, w = ex[1]; ok, whole = o[1], w[1]
        v = g.g(ex)
        if v[0] == 'float' or (g.fl and v[0] == 'e' and ok == whole == 'true'):
            if (ok, whole) != ('true', 'true'): raise Skip('float')
            x = g.bind('parsesFloat %s' % r[1], 'b')
        else:
            x = g.bind('parses %s %s %s %s' % (r[1], g.e(v), ok, whole), 'b')
        g.checks.append(x[1]); return
    m = re.match(r'^(?:const )?(?:std::string_view|std::string|char\*|char \*)\s+(\w+)\s*(?:=\s*|\()"((?:[^"\\]|\\.)*)"\)?$', s, re.S)
    if m: g.env[m.group(1)] = ('s', m.group(2)); return
    m = re.match(r'^const ParseResult (\w+) = (.*)$', s, re.S)
    if m:
        g.env[m.group(1)] = g.g(gen.parse(m.group(2))); return
    m = re.match(r'^const Name (\w+)\{(.*)\}$', s, re.S)
    if m: g.env[m.group(1)] = ('name', g.name(P(lex(m.group(2) + '}')).args('}'))); return
    if re.match(r'^PlaintextPrintEngine engine\(stream, PlaintextPrintEngine::CharSet::ASCII\)$', s): return
    m = re.match(r'^const std::string (\w+) = print\((.*)\)$', s, re.S)
    if m:
        cs, e = g.printArg(P(lex(m.group(2) + ')')).args(')'))
        g.env[m.group(1)] = ('pr', 'printTop refSys W0 %s true 40 %s' % (cs, e)); return
    m = re.match(r'^stream << (\w+)$', s)
    if m: g.env['stream'] = ('pr', 'printTop refSys W0 UnicodeSet true 40 %s' % g.printArg([('id', m.group(1))])[1]); return
    m = re.match(r'^BOOST_CHECK_EQUAL\s*\((.*)\)$', s, re.S)
    if m and g.file == 'testprinter.cpp':
        a = P(lex(m.group(1))); x = a.expr(); a.eat(','); y = a.expr()
        t = g.text(x)
        if y[0] == 'call' and y[1] in ('print', 'printDebug'):
            cs, e = g.printArg(y[2])
            pr = 'printTop refSys W0 %s %s 40 %s' % (cs, 'true' if y[1] == 'print' else 'false', e)
        elif y[0] == 'id' and g.env.get(y[1], ('',))[0] == 'pr': pr = g.env[y[1]][1]
        elif y[0] == 'meth' and y[1] == 'str': pr = g.env['stream'][1]
        else: raise Skip('printed')
        v = g.bind(pr, 't'); g.checks.append('(sameText %s %s)' % (t, v[1])); return
    m = re.match(r'^const BasePtr (\w+) = Numeric::create\(-?[\d.]+(?:e[-+]?\d+)?\)$', s)
    if m and re.search(r'[.e]', s.split('(')[1]): g.env[m.group(1)] = ('float', ''); return
    return gen.stmt(g, s)

def main():
    repo, out = sys.argv[1:3]
    files = [a for a in ('parser', 'printer') if '--only' not in sys.argv or a in sys.argv]
    tests, skipped = [], []
    for f in files:
        src = open('%s/unit-tests/test%s.cpp' % (repo, f)).read()
        src = re.sub(r'#ifndef TSYM_ASCII_ONLY\s*(.*?)#else.*?#endif', r'\1', src, flags=re.S)
        src = strip_comments(src)
        for m in re.finditer(r'BOOST_AUTO_TEST_CASE\s*\((\w+)[^)]*\)*\s*\{', src):
            name = f + '_' + m.group(1)
            try:
                if 'OutsideOfRange' in name: raise Skip('exponents out of range are accepted by the model')
                # braces in strings: take the text up to the next test case
                end = src.find('BOOST_AUTO_TEST', m.end()); end = end if end > 0 else src.index('BOOST_AUTO_TEST_SUITE_END', m.end())
                b = src[m.end():src.rindex('}', 0, end)]
                g = T(); g.checks = []; g.file = 'test%s.cpp' % f; g.env.update(gen.ABC); g.fl = 'Float' in name or 'Scientific' in name
                g.env['euler'] = ('e', '(Cst CE)')
                if 'sqrtTwo' in b: g.env['sqrtTwo'] = g.bind('w_pow W0 (numZ 2) half', 'e')
                for s in split_top(b): stmt(g, s)
                if not g.checks: raise Skip('no checks')
                tests.append((name, g.lines, g.checks))
            except (Skip, IndexError, KeyError, TypeError, ValueError) as ex:
                skipped.append((name, str(ex)))
    with open(out, 'w') as o:
        o.write(HDR % (' PrinterModel' if 'printer' in files else ''))
        groups = {}
        for n, ls, cs in tests:
            groups.setdefault(n.split('_')[0], []).append(n)
            o.write('Definition t_%s : res (list bool) :=\n' % n)
            for l in ls: o.write('  ' + l + '\n')
            o.write('  ret [%s].\n' % '; '.join(cs))
        for f, ns in groups.items():
            o.write('\n(** unit-tests/test%s.cpp *)\nDefinition ran_%s : list bool := Eval vm_compute in map passes [\n  %s].\nExample conforms_%s : forallb id ran_%s = true.\nProof. reflexivity. Qed.\n'
                    % (f, f, ';\n  '.join('t_' + n for n in ns), f, f))
    print(len(tests), 'translated', len(skipped), 'skipped')
    if '--list' in sys.argv:
        for s in skipped: print(s)
if __name__ == "__main__": main()
