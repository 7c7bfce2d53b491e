"""A transcription of Go's regexp/syntax.Parse (Go 1.21), as far as the expressions in the tests of
/repo need it. It writes the terms (Model/GoRegexp.v: gre) in theories/Conform/Expressions.v.

Not used by any proof: the terms it writes are inputs of tests."""

MAXRUNE = 0x10FFFF
FOLD, DOTNL, ONELINE, NONGREEDY = 1, 2, 4, 8


def orbit(r):
    for o in ([0x4B, 0x6B, 0x212A], [0x53, 0x73, 0x17F], [0x391, 0x3B1]):
        if r in o:
            return o
    if 65 <= r <= 90:
        return [r, r + 32]
    if 97 <= r <= 122:
        return [r - 32, r]
    return [r]


def simple_fold(r):
    o = orbit(r)
    return o[(o.index(r) + 1) % len(o)]


class Re:
    def __init__(self, op, **k):
        self.op, self.rune, self.sub, self.flags = op, [], [], 0
        self.min = self.max = self.cap = 0
        self.__dict__.update(k)


ORDER = ["NoMatch", "EmptyMatch", "Literal", "CharClass", "AnyCharNotNL", "AnyChar", "BeginLine", "EndLine", "BeginText", "EndText",
         "WordBoundary", "NoWordBoundary", "Capture", "Star", "Plus", "Quest", "Repeat", "Concat", "Alternate"]


def clean_class(rs):
    ps = sorted(((rs[i], rs[i + 1]) for i in range(0, len(rs), 2)), key=lambda p: (p[0], -p[1]))
    out = []
    for lo, hi in ps:
        if out and lo <= out[-1][1] + 1:
            out[-1][1] = max(out[-1][1], hi)
        else:
            out.append([lo, hi])
    return [x for p in out for x in p]


def negate(rs):
    out, nxt = [], 0
    for i in range(0, len(rs), 2):
        if nxt <= rs[i] - 1:
            out += [nxt, rs[i] - 1]
        nxt = rs[i + 1] + 1
    if nxt <= MAXRUNE:
        out += [nxt, MAXRUNE]
    return out


def folded(rs):
    out = []
    for i in range(0, len(rs), 2):
        out += rs[i:i + 2]
        for c in range(rs[i], min(rs[i + 1], 0x2200) + 1):
            for x in orbit(c):
                out += [x, x]
    return clean_class(out)


PERL = {"d": [0x30, 0x39], "s": [0x9, 0xA, 0xC, 0xD, 0x20, 0x20], "w": [0x30, 0x39, 0x41, 0x5A, 0x5F, 0x5F, 0x61, 0x7A]}
POSIX = {"[:space:]": [0x9, 0xD, 0x20, 0x20], "[:digit:]": [0x30, 0x39]}
ESC = {"a": 7, "f": 12, "n": 10, "r": 13, "t": 9, "v": 11}


def is_char_class(r):
    return r.op == "Literal" and len(r.rune) == 1 or r.op in ("CharClass", "AnyCharNotNL", "AnyChar")


def same(a, b):
    return (a.op == b.op and a.rune == b.rune and a.flags == b.flags and (a.min, a.max, a.cap) == (b.min, b.max, b.cap)
            and len(a.sub) == len(b.sub) and all(same(x, y) for x, y in zip(a.sub, b.sub)))


class Parser:
    def __init__(self, s, flags):
        self.s, self.i, self.flags, self.stack, self.ncap = s, 0, flags, [], 0

    def maybe_concat(self, r, flags):
        if len(self.stack) < 2:
            return False
        re1, re2 = self.stack[-1], self.stack[-2]
        if re1.op != "Literal" or re2.op != "Literal" or re1.flags & FOLD != re2.flags & FOLD:
            return False
        re2.rune = re2.rune + re1.rune
        if r >= 0:
            re1.rune, re1.flags = [r], flags
            return True
        self.stack.pop()
        return False

    def push(self, re):
        rs = re.rune
        if re.op == "CharClass" and len(rs) == 2 and rs[0] == rs[1]:
            if self.maybe_concat(rs[0], self.flags & ~FOLD):
                return
            re.op, re.rune, re.flags = "Literal", rs[:1], self.flags & ~FOLD
        elif (re.op == "CharClass" and len(rs) == 4 and rs[0] == rs[1] and rs[2] == rs[3] and simple_fold(rs[0]) == rs[2] and simple_fold(rs[2]) == rs[0]
              or re.op == "CharClass" and len(rs) == 2 and rs[0] + 1 == rs[1] and simple_fold(rs[0]) == rs[1] and simple_fold(rs[1]) == rs[0]):
            if self.maybe_concat(rs[0], self.flags | FOLD):
                return
            re.op, re.rune, re.flags = "Literal", rs[:1], self.flags | FOLD
        else:
            self.maybe_concat(-1, 0)
        self.stack.append(re)

    def literal(self, c):
        f = self.flags
        if f & FOLD:
            c = min(orbit(c))
        self.push(Re("Literal", rune=[c], flags=f))

    def op(self, op):
        self.push(Re(op, flags=self.flags))

    def collapse(self, subs, op):
        if len(subs) == 1:
            return subs[0]
        re = Re(op)
        for s in subs:
            re.sub += s.sub if s.op == op else [s]
        if op == "Alternate":
            re.sub = self.factor(re.sub)
            if len(re.sub) == 1:
                return re.sub[0]
        return re

    def concat(self):
        self.maybe_concat(-1, 0)
        i = len(self.stack)
        while i > 0 and self.stack[i - 1].op not in ("(", "|"):
            i -= 1
        subs, self.stack = self.stack[i:], self.stack[:i]
        self.push(Re("EmptyMatch") if not subs else self.collapse(subs, "Concat"))

    @staticmethod
    def clean_alt(re):
        if re.op == "CharClass":
            re.rune = clean_class(re.rune)
            if re.rune == [0, MAXRUNE]:
                re.op, re.rune = "AnyChar", []
            elif re.rune == [0, 9, 11, MAXRUNE]:
                re.op, re.rune = "AnyCharNotNL", []

    def alternate(self):
        i = len(self.stack)
        while i > 0 and self.stack[i - 1].op != "(":
            i -= 1
        subs, self.stack = self.stack[i:], self.stack[:i]
        if subs:
            self.clean_alt(subs[-1])
        self.push(Re("NoMatch") if not subs else self.collapse(subs, "Alternate"))

    @staticmethod
    def merge_class(dst, src):
        if dst.op == "AnyChar":
            return
        if dst.op == "AnyCharNotNL":
            if src.op == "Literal" and src.rune == [10] or src.op == "CharClass" and any(src.rune[i] <= 10 <= src.rune[i + 1] for i in range(0, len(src.rune), 2)):
                dst.op = "AnyChar"
            return
        if dst.op == "CharClass":
            dst.rune = dst.rune + (Parser.lit_class(src) if src.op == "Literal" else src.rune)
            return
        if src.rune == dst.rune and src.flags == dst.flags:
            return
        dst.rune = Parser.lit_class(dst) + Parser.lit_class(src)
        dst.op = "CharClass"

    @staticmethod
    def lit_class(x):
        rs = [x.rune[0], x.rune[0]]
        return folded(rs) if x.flags & FOLD else rs

    def swap_bar(self):
        n = len(self.stack)
        if n >= 3 and self.stack[n - 2].op == "|" and is_char_class(self.stack[n - 1]) and is_char_class(self.stack[n - 3]):
            re1, re3 = self.stack[n - 1], self.stack[n - 3]
            if ORDER.index(re1.op) > ORDER.index(re3.op):
                re1, re3 = re3, re1
                self.stack[n - 3] = re3
            self.merge_class(re3, re1)
            self.stack.pop()
            return True
        if n >= 2 and self.stack[n - 2].op == "|":
            if n >= 3:
                self.clean_alt(self.stack[n - 3])
            self.stack[n - 2], self.stack[n - 1] = self.stack[n - 1], self.stack[n - 2]
            return True
        return False

    # factor: the four rounds of parse.go
    @staticmethod
    def leading_string(re):
        if re.op == "Concat" and re.sub:
            re = re.sub[0]
        return (re.rune, re.flags & FOLD) if re.op == "Literal" else (None, 0)

    @staticmethod
    def remove_leading_string(re, n):
        if re.op == "Concat" and re.sub:
            sub = Parser.remove_leading_string(re.sub[0], n)
            re.sub = [sub] + re.sub[1:]
            if sub.op == "EmptyMatch":
                if len(re.sub) <= 1:
                    return Re("EmptyMatch")
                if len(re.sub) == 2:
                    return re.sub[1]
                re.sub = re.sub[1:]
            return re
        if re.op == "Literal":
            re.rune = re.rune[n:]
            if not re.rune:
                re.op = "EmptyMatch"
        return re

    @staticmethod
    def leading_regexp(re):
        if re.op == "EmptyMatch":
            return None
        if re.op == "Concat" and re.sub:
            return None if re.sub[0].op == "EmptyMatch" else re.sub[0]
        return re

    @staticmethod
    def remove_leading_regexp(re):
        if re.op == "Concat" and re.sub:
            re.sub = re.sub[1:]
            if not re.sub:
                return Re("EmptyMatch")
            return re.sub[0] if len(re.sub) == 1 else re
        return Re("EmptyMatch")

    def factor(self, sub):
        if len(sub) < 2:
            return sub
        # 1: common literal prefixes
        out, start, st, fl = [], 0, None, 0
        for i in range(len(sub) + 1):
            ist, ifl = None, 0
            if i < len(sub):
                ist, ifl = self.leading_string(sub[i])
                if ifl == fl and st is not None and ist is not None:
                    k = 0
                    while k < len(st) and k < len(ist) and st[k] == ist[k]:
                        k += 1
                    if k > 0:
                        st = st[:k]
                        continue
            if i == start:
                pass
            elif i == start + 1:
                out.append(sub[start])
            else:
                prefix = Re("Literal", flags=fl, rune=list(st))
                for j in range(start, i):
                    sub[j] = self.remove_leading_string(sub[j], len(st))
                out.append(Re("Concat", sub=[prefix, self.collapse(sub[start:i], "Alternate")]))
            start, st, fl = i, ist, ifl
        sub = out
        # 2: common simple prefixes
        out, start, first = [], 0, None
        for i in range(len(sub) + 1):
            ifirst = None
            if i < len(sub):
                ifirst = self.leading_regexp(sub[i])
                if (first is not None and ifirst is not None and same(first, ifirst)
                        and (is_char_class(first) or first.op in ("BeginLine", "EndLine", "WordBoundary", "NoWordBoundary", "BeginText", "EndText")
                             or first.op == "Repeat" and first.min == first.max and is_char_class(first.sub[0]))):
                    continue
            if i == start:
                pass
            elif i == start + 1:
                out.append(sub[start])
            else:
                for j in range(start, i):
                    sub[j] = self.remove_leading_regexp(sub[j])
                out.append(Re("Concat", sub=[first, self.collapse(sub[start:i], "Alternate")]))
            start, first = i, ifirst
        sub = out
        # 3: runs of single characters and classes
        out, start = [], 0
        for i in range(len(sub) + 1):
            if i < len(sub) and is_char_class(sub[i]):
                continue
            if i == start:
                pass
            elif i == start + 1:
                out.append(sub[start])
            else:
                mx = start
                for j in range(start + 1, i):
                    a, b = ORDER.index(sub[mx].op), ORDER.index(sub[j].op)
                    if a < b or a == b and len(sub[mx].rune) < len(sub[j].rune):
                        mx = j
                sub[start], sub[mx] = sub[mx], sub[start]
                for j in range(start + 1, i):
                    self.merge_class(sub[start], sub[j])
                self.clean_alt(sub[start])
                out.append(sub[start])
            if i < len(sub):
                out.append(sub[i])
            start = i + 1
        sub = out
        # 4: runs of empty matches
        return [x for i, x in enumerate(sub) if not (i + 1 < len(sub) and x.op == "EmptyMatch" and sub[i + 1].op == "EmptyMatch")]

    def repeat(self, op, mn=0, mx=0):
        ng = self.i < len(self.s) and self.s[self.i] == "?"
        if ng:
            self.i += 1
        sub = self.stack[-1]
        assert sub.op not in ("(", "|")
        self.stack[-1] = Re(op, sub=[sub], flags=NONGREEDY if ng else 0, min=mn, max=mx)

    def group(self, rs, neg):
        rs = folded(rs) if self.flags & FOLD else rs
        return negate(clean_class(rs)) if neg else list(rs)

    def parse_class(self):
        s, self.i = self.s, self.i + 1
        neg = s[self.i] == "^"
        if neg:
            self.i += 1
        rs, first = [], True
        while s[self.i] != "]" or first:
            first = False
            if s[self.i] == "[" and s[self.i + 1] == ":":
                name = s[self.i:s.index(":]", self.i) + 2]
                rs += self.group(POSIX[name], False)
                self.i += len(name)
                continue
            if s[self.i] == "\\" and s[self.i + 1].lower() in PERL:
                c = s[self.i + 1]
                rs += self.group(PERL[c.lower()], c.isupper())
                self.i += 2
                continue
            lo = hi = self.class_char()
            if s[self.i] == "-" and s[self.i + 1] != "]":
                self.i += 1
                hi = self.class_char()
            rs += folded([lo, hi]) if self.flags & FOLD else [lo, hi]
        self.i += 1
        rs = clean_class(rs)
        self.push(Re("CharClass", rune=negate(rs) if neg else rs, flags=self.flags))

    def class_char(self):
        if self.s[self.i] == "\\":
            return self.escape()
        self.i += 1
        return ord(self.s[self.i - 1])

    def escape(self):
        c = self.s[self.i + 1]
        self.i += 2
        if c in ESC:
            return ESC[c]
        assert ord(c) < 128 and not c.isalnum(), c
        return ord(c)

    def parse(self):
        s = self.s
        while self.i < len(s):
            c = s[self.i]
            if s.startswith("(?", self.i):
                j = self.i + 2
                sign, fl = 1, self.flags
                while s[j] not in ":)":
                    if s[j] == "-":
                        sign = -1
                    else:
                        bit = {"i": FOLD, "s": DOTNL, "m": ONELINE}[s[j]]
                        on = (sign > 0) != (s[j] == "m")
                        fl = fl | bit if on else fl & ~bit
                    j += 1
                self.i = j + 1
                if s[j] == ":":
                    self.push(Re("(", flags=self.flags))
                self.flags = fl
            elif c == "(":
                self.ncap += 1
                self.push(Re("(", flags=self.flags, cap=self.ncap))
                self.i += 1
            elif c == "|":
                self.concat()
                if not self.swap_bar():
                    self.op("|")
                self.i += 1
            elif c == ")":
                self.concat()
                if self.swap_bar():
                    self.stack.pop()
                self.alternate()
                re1, re2 = self.stack.pop(), self.stack.pop()
                assert re2.op == "("
                self.flags = re2.flags
                if re2.cap:
                    re2.op, re2.sub = "Capture", [re1]
                    self.push(re2)
                else:
                    self.push(re1)
                self.i += 1
            elif c == "^":
                self.op("BeginText" if self.flags & ONELINE else "BeginLine")
                self.i += 1
            elif c == "$":
                self.op("EndText" if self.flags & ONELINE else "EndLine")
                self.i += 1
            elif c == ".":
                self.op("AnyChar" if self.flags & DOTNL else "AnyCharNotNL")
                self.i += 1
            elif c == "[":
                self.parse_class()
            elif c in "*+?":
                self.i += 1
                self.repeat({"*": "Star", "+": "Plus", "?": "Quest"}[c])
            elif c == "{" and s[self.i + 1].isdigit():
                j = s.index("}", self.i)
                a = s[self.i + 1:j].split(",")
                self.i = j + 1
                self.repeat("Repeat", int(a[0]), int(a[0]) if len(a) == 1 else (int(a[1]) if a[1] else -1))
            elif c == "\\" and s[self.i + 1] in "bB":
                self.op("WordBoundary" if s[self.i + 1] == "b" else "NoWordBoundary")
                self.i += 2
            elif c == "\\" and s[self.i + 1].lower() in PERL:
                k = s[self.i + 1]
                self.i += 2
                self.push(Re("CharClass", rune=self.group(PERL[k.lower()], k.isupper()), flags=self.flags))
            elif c == "\\":
                self.literal(self.escape())
            else:
                self.literal(ord(c))
                self.i += 1
        self.concat()
        if self.swap_bar():
            self.stack.pop()
        self.alternate()
        assert len(self.stack) == 1
        return self.stack[0]


def parse(s):
    return Parser(s, ONELINE).parse()


ZERO = {"EmptyMatch": "ZEmpty", "BeginLine": "ZBeginLine", "EndLine": "ZEndLine", "BeginText": "ZBeginText", "EndText": "ZEndText",
        "WordBoundary": "ZWord", "NoWordBoundary": "ZNoWord"}


def coq(re):
    runes = "[" + "; ".join(map(str, re.rune)) + "]"
    ng = "true" if re.flags & NONGREEDY else "false"
    if re.op == "NoMatch":
        return "GNoMatch"
    if re.op in ZERO:
        return f"(GZero {ZERO[re.op]})"
    if re.op == "Literal":
        return f"(GLiteral {'true' if re.flags & FOLD else 'false'} {runes})"
    if re.op == "AnyCharNotNL":
        return "GAnyNotNL"
    if re.op == "AnyChar":
        return "GAny"
    if re.op == "CharClass":
        return f"(GClass {runes})"
    if re.op == "Capture":
        return f"(GCapture {re.cap}%nat {coq(re.sub[0])})"
    if re.op in ("Star", "Plus", "Quest"):
        return f"(G{re.op} {ng} {coq(re.sub[0])})"
    if re.op == "Repeat":
        return f"(GRepeat {ng} {re.min}%nat {'None' if re.max < 0 else '(Some %d%%nat)' % re.max} {coq(re.sub[0])})"
    return f"(G{re.op} [{'; '.join(coq(x) for x in re.sub)}])"
