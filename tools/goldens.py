"""Writes rocq/theories/GoldenVectors.v from the schemas and the expected
modules of the test suite (/repo/asn1PERser/test/parsing).  The schemas are read
by the small reader below, which builds the objects that
classes/parse_actions.py builds."""
import os, re, sys
SRC = '/repo/asn1PERser/test/parsing'
TOK = re.compile(r"::=|\.\.\.|\.\.|\[\[|\]\]|'[^']*'[BH]|\"[^\"]*\"|-?[0-9]+|[A-Za-z][A-Za-z0-9]*(?:-[A-Za-z0-9]+)*|[{}(),|:;]")


class Reader:
    def __init__(self, text):
        text = re.sub('--.*', '', text)
        self.t = TOK.findall(text)
        self.i = 0

    def peek(self, k=0):
        return self.t[self.i + k] if self.i + k < len(self.t) else ''

    def next(self, want=None):
        x = self.peek()
        assert want is None or x == want, (x, want, self.t[self.i - 5:self.i + 5])
        self.i += 1
        return x

    def module(self):
        name = self.next()
        while self.next() != 'BEGIN':
            pass
        out = []
        while self.peek() != 'END':
            n = self.next()
            if self.peek() == '::=':
                self.next()
                p = self.type()
                p['name'] = n
                if p['builtin']:
                    p['tr'] = n
                else:
                    p['id'] = n
                out.append(p)
            else:
                p = self.type()
                self.next('::=')
                p['name'] = n
                p['vr'] = n.replace('-', '_')
                p['value'] = self.next()
                out.append(p)
        return out

    def obj(self, k, tr, ms=(), builtin=True):
        return dict(k=k, tr=tr, id='', vr='', opt=False, dflt=None, value=None, con=None,
                    ms=list(ms), builtin=builtin)

    def size(self):
        self.next('(')
        self.next('SIZE')
        c = self.bounds()
        self.next(')')
        return c

    def bounds(self):
        self.next('(')
        parts = []
        ext = False
        while self.peek() != ')':
            x = self.next()
            if x == '...':
                ext = True
            elif x not in ('..', ',', '|'):
                parts.append(x)
        self.next(')')
        return (parts[0], parts[-1], ext)

    def type(self):
        x = self.next()
        if x == 'INTEGER':
            p = self.obj('KInt', 'IntegerType')
        elif x == 'BOOLEAN':
            p = self.obj('KBool', 'BooleanType')
        elif x == 'OCTET':
            self.next('STRING')
            p = self.obj('KOcts', 'OctetStringType')
        elif x == 'BIT':
            self.next('STRING')
            p = self.obj('KBits', 'BitStringType')
        elif x == 'ENUMERATED':
            self.next('{')
            items = []
            while self.peek() != '}':
                items.append(('s', self.next()))
                if self.peek() == ',':
                    self.next()
            self.next('}')
            p = self.obj('KEnum', 'EnumeratedType', items)
        elif x == 'SEQUENCE' and self.peek() == '{':
            p = self.obj('KSeq', 'SequenceType', self.comps())
        elif x == 'CHOICE':
            p = self.obj('KChoice', 'ChoiceType', self.comps())
        elif x == 'SEQUENCE':
            con = None
            if self.peek() == '(':
                con = self.size()
            self.next('OF')
            p = self.obj('KSeqOf', 'SequenceOfType', [('t', self.type())])
            p['con'] = con
        else:
            p = self.obj('KDefined', x, builtin=False)
            p['ref'] = x
        if self.peek() == '(':
            p['con'] = self.size() if self.peek(1) == 'SIZE' else self.bounds()
        return p

    def comps(self):
        self.next('{')
        out = []
        while self.peek() != '}':
            x = self.next()
            if x in ('...', '[[', ']]'):
                out.append(('s', x))
            else:
                p = self.type()
                p['id'] = x
                if self.peek() == 'OPTIONAL':
                    self.next()
                    p['opt'] = True
                elif self.peek() == 'DEFAULT':
                    self.next()
                    p['dflt'] = self.next()
                out.append(('t', p))
            if self.peek() == ',':
                self.next()
        self.next('}')
        return out


def q(s):
    return '"%s"' % s.replace('"', '""')


def opt(x):
    return 'None' if x is None else '(Some %s)' % q(x)


def show(p, ind):
    con = 'None' if p['con'] is None else '(Some (%s, %s, %s))' % (
        q(p['con'][0]), q(p['con'][1]), str(p['con'][2]).lower())
    ms = ('; ').join(('inl %s' % q(m[1])) if m[0] == 's' else '\n' + ' ' * (ind + 2) + 'inr (%s)' % show(m[1], ind + 2)
                     for m in p['ms'])
    return 'PT %s %s %s %s %s %s %s %s [%s]' % (
        p['k'], q(p['tr']), q(p['id']), q(p['vr']), str(p['opt']).lower(), opt(p['dflt']),
        opt(p['value']), con, ms)


def bnd(x):
    if x in ('MIN', 'MAX'):
        return 'B' + x.capitalize()
    return '(BNum (%s))' % x if re.match('-?[0-9]', x) else '(BRef %s)' % q(x)


def rng(c):
    return 'None' if c is None else '(Some (Range %s %s %s))' % (bnd(c[0]), bnd(c[1]), str(c[2]).lower())


def lit(x, enum=False):
    if re.match('-?[0-9]', x):
        return '(LNum (%s))' % x
    if x in ('TRUE', 'FALSE'):
        return '(LBoolean %s)' % x.lower()
    if x.endswith("'B"):
        return '(LBin [%s])' % '; '.join({'0': 'false', '1': 'true'}[d] for d in x[1:-2])
    if x.endswith("'H"):
        return '(LHex [%s])' % '; '.join('%d%%Z' % int(d, 16) for d in x[1:-2])
    return '(LItem %s)' % q(x)


def asn(p, ind):
    """The type as a term of Meaning.v; fails where it has no notation."""
    k = p['k']
    if k in ('KInt', 'KOcts', 'KBits'):
        return '%s %s' % ({'KInt': 'AInteger', 'KOcts': 'AOctets', 'KBits': 'ABitstr'}[k], rng(p['con']))
    if k == 'KBool':
        return 'ABoolean'
    if k == 'KDefined':
        return 'ARef %s %s' % (q(p['ref']), rng(p['con']))
    if k == 'KEnum':
        items = [m[1] for m in p['ms']]
        i = items.index('...') if '...' in items else len(items)
        strs = lambda l: '[%s]' % '; '.join(map(q, l))
        return 'AEnumer %s %s' % (strs(items[:i]), '(Some %s)' % strs(items[i + 1:]) if i < len(items) else 'None')
    if k == 'KSeqOf':
        return 'ASeqOf %s (%s)' % (rng(p['con']), asn(p['ms'][0][1], ind))
    ms = p['ms']
    marks = [m[1] for m in ms if m[0] == 's']
    ext = '...' in marks
    assert marks.count('...') <= 1
    i = ms.index(('s', '...')) if ext else len(ms)
    root, rest, adds, groups = ms[:i], ms[i + 1:], [], []
    while rest and rest[0][0] == 't':
        adds.append(rest.pop(0))
    while rest:
        assert rest.pop(0) == ('s', '[[')
        g = []
        while rest[0][0] == 't':
            g.append(rest.pop(0))
        assert rest.pop(0) == ('s', ']]')
        groups.append(g)

    def parts(l):
        def one(q_):
            s = 'Optional' if q_['opt'] else 'Mandatory' if q_['dflt'] is None else '(Default %s)' % lit(q_['dflt'])
            return '\n' + ' ' * (ind + 2) + 'Part %s %s (%s)' % (q(q_['id']), s, asn(q_, ind + 2))
        return '[%s]' % '; '.join(one(m[1]) for m in l)
    return '%s %s %s %s [%s]' % ({'KSeq': 'ASequence', 'KChoice': 'AChoice'}[k], str(ext).lower(), parts(root),
                                 parts(adds), '; '.join(map(parts, groups)))


def assignment(p):
    if p['vr']:
        return 'ValueA %s (%s) %s' % (q(p['name']), asn(p, 2), lit(p['value']))
    return 'TypeA %s (%s)' % (q(p['name']), asn(p, 2))


def main():
    out2 = ['(** The same schemas in the notation of Meaning.v, and that parsing them gives the',
            '    objects of GoldenVectors.v.  Written by tools/goldens.py. *)', '',
            'From Coq Require Import ZArith List String.', 'Import ListNotations.',
            'From Verif Require Import Generator Meaning GoldenVectors.', '',
            'Open Scope Z_scope.', 'Open Scope string_scope.', 'Open Scope list_scope.', '']
    out = ['(** Schemas of the test suite and the modules it expects for them.  Written by',
           '    tools/goldens.py from asn1PERser/test/parsing; do not edit. *)', '',
           'From Coq Require Import List String.', 'Import ListNotations.',
           'From Verif Require Import Generator.', '',
           'Open Scope string_scope.', 'Open Scope list_scope.', '']
    out3 = ['(** Tests of the grammar model, not proofs of properties: the schemas of the test',
            '    suite are read as the objects of GoldenVectors.v.  Written by',
            '    tools/goldens.py. *)', '',
            'From Coq Require Import List String.', 'Import ListNotations.',
            'From Verif Require Import Generator Grammar GoldenVectors Fast.', '',
            'Open Scope string_scope.', 'Open Scope list_scope.', 'Open Scope nat_scope.', '']
    names = sorted(f[:-5] for f in os.listdir(SRC + '/asn1_schemas') if f.endswith('.asn1'))
    for n in names:
        ps = Reader(open('%s/asn1_schemas/%s.asn1' % (SRC, n)).read()).module()
        out2.append('Definition asn_%s : schema := [' % n)
        out2.append(';\n'.join('  ' + assignment(p) for p in ps) + '].')
        out2.append('Example parsed_%s : map parsed_as asn_%s = schema_%s.' % (n, n, n))
        out2.append('Proof. vm_compute. reflexivity. Qed.\n')
        out.append('(** asn1_schemas/%s.asn1 *)' % n)
        out.append('Definition schema_%s : list ptype := [' % n)
        out.append(';\n'.join('  ' + show(p, 2) for p in ps) + '].\n')
        text = open('%s/asn1_schemas/%s.asn1' % (SRC, n), newline='').read().replace('"', '""')
        out3.append('Definition text_%s : string :=\n"%s".\n' % (n, text))
        if n in ('Choice_Simple', 'SimpleTypes'):
            out3.append('Example read_%s : exists r, read_schema 300 text_%s = Match r schema_%s.' % (n, n, n))
            out3.append('Proof. eexists. rewrite read_fast. vm_compute. reflexivity. Qed.\n')
        else:
            out3.append('Definition got_%s := Eval vm_compute in fast_schema 300 text_%s.' % (n, n))
            out3.append('Example read_%s : exists r, got_%s = Match r schema_%s.' % (n, n, n))
            out3.append('Proof. eexists. reflexivity. Qed.\n')
        gold = open('%s/asn1_python_code/%s.py' % (SRC, n), newline='').read()
        out.append('(** asn1_python_code/%s.py *)' % n)
        out.append('Definition module_%s : string :=\n"%s".\n' % (n, gold.replace('"', '""')))
    for f, o in (('GoldenVectors', out), ('GoldenSchemas', out2), ('GrammarTests', out3)):
        here = os.path.dirname(os.path.abspath(__file__))
        open(os.path.join(here, '..', 'rocq', 'theories', f + '.v'), 'w').write('\n'.join(o))


main()
