"""Writes theories/Conform*.v: the repository's own test vectors (ssz-rs/tests), run on the model.

Reads the tests and their data files as text. Usage: gen_conformance.py REPO THEORIES
"""
import os, re, sys

repo, theories = sys.argv[1], sys.argv[2]
TESTS = os.path.join(repo, 'ssz-rs', 'tests')
MAX_BYTES, MAX_HASHES, FILES = 1500, 100, 4


def unsnappy(data):
    """Raw snappy format."""
    pos, n, shift = 0, 0, 0
    while True:
        b = data[pos]; pos += 1
        n |= (b & 127) << shift; shift += 7
        if b < 128: break
    out = bytearray()
    while pos < len(data):
        tag = data[pos]; pos += 1
        if tag & 3 == 0:
            ln = tag >> 2
            if ln >= 60:
                k = ln - 59
                ln = int.from_bytes(data[pos:pos + k], 'little'); pos += k
            out += data[pos:pos + ln + 1]; pos += ln + 1
        else:
            if tag & 3 == 1:
                ln = 4 + (tag >> 2 & 7); off = (tag >> 5) << 8 | data[pos]; pos += 1
            elif tag & 3 == 2:
                ln = 1 + (tag >> 2); off = int.from_bytes(data[pos:pos + 2], 'little'); pos += 2
            else:
                ln = 1 + (tag >> 2); off = int.from_bytes(data[pos:pos + 4], 'little'); pos += 4
            for _ in range(ln): out.append(out[-off])
    assert len(out) == n
    return bytes(out)


def tokens(s):
    return re.findall(r'0x[0-9a-fA-F_]+|\d+|\w+|::|[<>{}()\[\],.&:]', s)


class Parser:
    def __init__(self, s, structs): self.t, self.i, self.structs = tokens(s), 0, structs
    def peek(self): return self.t[self.i] if self.i < len(self.t) else None
    def next(self): self.i += 1; return self.t[self.i - 1]
    def eat(self, *ts):
        for t in ts:
            if t == ')' and self.peek() == ',': self.next()
            x = self.next()
            assert x == t, (x, t, self.t[self.i - 5:self.i + 5])

    def type(self):
        """('Vector', element, n), ('uint', 'U8'), ..."""
        x = self.next()
        if x == 'bool': return ('bool',)
        if x in ('u8', 'u16', 'u32', 'u64', 'u128', 'usize'): return ('uint', x[0].upper() + x[1:])
        if x == 'U256': return ('U256',)
        if x in ('Vector', 'List'):
            if self.peek() == '::': self.next()
            self.eat('<'); t = self.type(); self.eat(','); n = int(self.next()); self.eat('>')
            return (x, t, n)
        if x in ('Bitvector', 'Bitlist'):
            self.eat('<'); n = int(self.next()); self.eat('>')
            return (x, n)
        return ('struct', x)

    def vec(self, item):
        """Vec::<T>::from_iter([..]) or vec![..]"""
        macro = self.peek() == 'vec'
        if macro: self.eat('vec', '[')
        else: self.eat('Vec', '::', '<'); self.type(); self.eat('>', '::', 'from_iter', '(', '[')
        out = []
        while self.peek() != ']':
            out.append(item())
            if self.peek() == ',': self.next()
        self.eat(']')
        if not macro: self.eat(')')
        return out

    def value(self, t):
        if t[0] == 'bool': return {'true': True, 'false': False}[self.next()]
        if t[0] == 'uint':
            x = self.next(); assert x.isdigit(), x
            return int(x)
        if t[0] == 'U256':
            self.eat('U256', '::', 'try_from_le_slice', '(')
            if self.peek() == '&': self.next()
            l = self.vec(lambda: int(self.next()))
            if self.peek() == '.': self.eat('.', 'as_ref', '(', ')')
            self.eat(')', '.', 'unwrap', '(', ')')
            assert len(l) <= 32
            return int.from_bytes(bytes(l), 'little')
        if t[0] in ('Vector', 'List'):
            assert self.type() == t
            self.eat('::', 'try_from', '(')
            l = self.vec(lambda: self.value(t[1]))
            self.eat(')', '.', 'unwrap', '(', ')')
            return l
        if t[0] in ('Bitvector', 'Bitlist'):
            self.eat('<'); assert self.type() == t
            self.eat('as', 'TryFrom', '<', '&', '[', 'u8', ']', '>', '>', '::', 'try_from', '(')
            l = self.vec(lambda: int(self.next()))
            self.eat('.', 'as_ref', '(', ')', ')', '.', 'unwrap', '(', ')')
            bits = [b >> k & 1 for b in l for k in range(8)]
            if t[0] == 'Bitvector': return [bool(b) for b in bits[:t[1]]]
            while bits and not bits[-1]: bits.pop()
            return [bool(b) for b in bits[:-1]]
        name = t[1]; self.eat(name, '{')
        out = []
        for f, ft in self.structs[name]:
            self.eat(f, ':'); out.append(self.value(ft))
            if self.peek() == ',': self.next()
        self.eat('}')
        return out


def coq_type(t, structs):
    if t[0] == 'bool': return 'TBool'
    if t[0] == 'uint': return '(TUint %s)' % t[1]
    if t[0] == 'U256': return 'TU256'
    if t[0] in ('Vector', 'List'): return '(T%s %s %d)' % (t[0], coq_type(t[1], structs), t[2])
    if t[0] in ('Bitvector', 'Bitlist'): return '(T%s %d)' % t
    return t[1]


def coq_val(v, t, structs):
    if t[0] == 'bool': return '(VBool %s)' % str(v).lower()
    if t[0] in ('uint', 'U256'): return '(VUint %d)' % v
    if t[0] in ('Vector', 'List'):
        if t[1][0] == 'uint' and v: return '(uints [%s])' % '; '.join(map(str, v))
        return '(VSeq [%s])' % '; '.join(coq_val(x, t[1], structs) for x in v)
    if t[0] in ('Bitvector', 'Bitlist'):
        return '(bits %d 0x%x)' % (len(v), sum(1 << i for i, b in enumerate(v) if b))
    return '(VStruct [%s])' % '; '.join(coq_val(x, ft, structs) for x, (_, ft) in zip(v, structs[t[1]]))


def depth(n):
    return max(n - 1, 0).bit_length()


def pairs(n, limit):
    """Number of hashes to merkleize n chunks with room for limit chunks."""
    total = 0
    for _ in range(depth(limit)):
        n = (n + 1) // 2
        total += n
    return total


SIZE = {'U8': 1, 'U16': 2, 'U32': 4, 'U64': 8, 'U128': 16, 'Usize': 8}


def hashes(v, t, structs):
    if t[0] in ('bool', 'uint', 'U256'): return 0
    if t[0] in ('Vector', 'List'):
        s = {'bool': 1, 'U256': 32}.get(t[1][0]) or (t[1][0] == 'uint' and SIZE[t[1][1]])
        extra = 1 if t[0] == 'List' else 0
        if s: return extra + pairs((len(v) * s + 31) // 32, (t[2] * s + 31) // 32)
        return extra + pairs(len(v), t[2]) + sum(hashes(x, t[1], structs) for x in v)
    if t[0] == 'Bitvector': return pairs((t[1] + 255) // 256, (t[1] + 255) // 256)
    if t[0] == 'Bitlist': return 1 + pairs((len(v) + 255) // 256, (t[1] + 255) // 256)
    fs = structs[t[1]]
    return pairs(len(fs), len(fs)) + sum(hashes(x, ft, structs) for x, (_, ft) in zip(v, fs))


def coq_bytes(b):
    return '(hex %d 0x%s)' % (len(b), (b[::-1].hex() or '0'))


structs = {}
valid, invalid, skipped = [], [], []
for name in ('boolean', 'uints', 'basic_vector', 'bitvector', 'bitlist', 'containers'):
    src = open(os.path.join(TESTS, name + '.rs')).read()
    for m in re.finditer(r'\nstruct (\w+) \{(.*?)\n\}', src, re.S):
        structs[m.group(1)] = [(f, Parser(ft, structs).type())
                               for f, ft in re.findall(r'\n\s*(\w+): (.*?),(?=\n|$)', m.group(2))]
    for m in re.finditer(r'#\[test\]\n(#\[should_panic\]\n)?fn (\w+)\(\) \{\n(.*?)\n\}', src, re.S):
        panics, test, body = m.groups()
        path = re.search(r'read_ssz_snappy_from_test_data\(\s*"(.*?)"', body).group(1)
        enc = unsnappy(open(os.path.join(repo, path), 'rb').read())
        if panics:
            t = Parser(re.search(r'deserialize::<(.*)>\(&encoding\)', body).group(1), structs).type()
            (invalid if len(enc) <= MAX_BYTES else skipped).append((name, test, t, enc))
        else:
            t = Parser(re.search(r'let recovered_value: (.*?) =', body, re.S).group(1), structs).type()
            v = Parser(re.search(r'let value\s*(?::.*?)?=\s*(.*?);\n', body, re.S).group(1), structs).value(t)
            root = bytes.fromhex(re.search(r'root_from_hex\("0x(\w+)"\)', body).group(1))
            h = hashes(v, t, structs)
            ok = len(enc) <= MAX_BYTES and h <= MAX_HASHES
            (valid if ok else skipped).append((name, test, t, enc, v, root, h))

print('valid %d invalid %d skipped %d hashes %d bytes %d' % (
    len(valid), len(invalid), len(skipped), sum(x[6] for x in valid),
    sum(len(x[3]) for x in valid) + sum(len(x[3]) for x in invalid)))

HEAD = '''(** %s

    Written by tools/gen_conformance.py from %s. These are tests of the model, not proofs about
    the code. *)
From Coq Require Import String List NArith Bool.
From Verif Require Import Prelude Types %s.
Import ListNotations.
Open Scope N_scope.

'''
if '--stats' in sys.argv: sys.exit()

defs = ''
for s in ('SingleFieldTestStruct', 'SmallTestStruct', 'FixedTestStruct', 'VarTestStruct',
          'ComplexTestStruct', 'BitsStruct'):
    defs += 'Definition %s : ty :=\n  TContainer\n    [%s].\n\n' % (
        s, ';\n     '.join('("%s"%%string, %s)' % (f, coq_type(t, structs)) for f, t in structs[s]))
open(os.path.join(theories, 'ConformTypes.v'), 'w').write(
    HEAD % ('The structs of the integration tests.', 'ssz-rs/tests/containers.rs:9-52', 'Conform') + defs.rstrip() + '\n')

# spread the work: most hashes first, each to the least loaded file
loads = [0] * FILES
parts = [([], []) for _ in range(FILES)]
for x in sorted(valid, key=lambda x: -x[6]):
    k = loads.index(min(loads)); loads[k] += x[6] + len(x[3]) / 100 + 1
    parts[k][0].append(x)
for x in sorted(invalid, key=lambda x: -len(x[3])):
    k = loads.index(min(loads)); loads[k] += len(x[3]) / 200 + .5
    parts[k][1].append(x)
for k, (va, inv) in enumerate(parts):
    s = HEAD % ('The integration tests of the crate, part %d of %d.' % (k + 1, FILES), 'ssz-rs/tests',
                'Conform ConformTypes')
    s += 'Definition accepted : list accept_test :=\n  [%s].\n\n' % ';\n   '.join(
        '(* %s *)\n   (%s,\n    %s,\n    %s,\n    %s)' % (
            x[1], coq_type(x[2], structs), coq_val(x[4], x[2], structs), coq_bytes(x[3]), coq_bytes(x[5]))
        for x in va)
    s += 'Definition rejected : list reject_test :=\n  [%s].\n\n' % ';\n   '.join(
        '(* %s *)\n   (%s, %s)' % (x[1], coq_type(x[2], structs), coq_bytes(x[3])) for x in inv)
    for n, c in (('accepted', 'accept_passes'), ('rejected', 'reject_passes')):
        s += ('Definition %s_result : bool := Eval vm_compute in forallb %s %s.\n\n'
              'Example %s_pass : %s_result = true.\nProof. reflexivity. Qed.\n\n' % (n, c, n, n, n))
    s = s.rstrip() + '\n'
    open(os.path.join(theories, 'Conform%d.v' % (k + 1)), 'w').write(s)
