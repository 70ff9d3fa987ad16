#!/usr/bin/env python3
"""Translate the unit tests of the crate to Examples about the model.

usage: repotests.py /repo/src > rocq/theories/RepoTests.v

Reads every #[test] function, parses its body as Rust and prints each
assert_eq! as an Example whose proof is a computation.  Anything outside of the
small subset of Rust used by the tests is an error."""
import sys, os, re

TOK = re.compile(r'\s*(?://[^\n]*\n\s*)*("(?:[^"\\]|\\.)*"|\d+\.\d+|\d+|[A-Za-z_]\w*!?|::|->|[{}()\[\],.;:&=+])')
def lex(s):
    out, i = [], 0
    while True:
        m = TOK.match(s, i)
        if not m:
            assert not s[i:].strip(), s[i:i + 40]
            return out
        out.append(m.group(1)); i = m.end()

class P:
    """Parser for the Rust subset; terms are nested tuples."""
    def __init__(self, toks): self.t, self.i = toks, 0
    def peek(self, k=0): return self.t[self.i + k] if self.i + k < len(self.t) else None
    def eat(self, x=None):
        y = self.t[self.i]
        assert x is None or x == y, (x, y, self.t[self.i - 8:self.i + 4])
        self.i += 1; return y
    def items(self, close):
        l = []
        while self.peek() != close:
            l.append(self.expr())
            if self.peek() == ',': self.eat()
        self.eat(close); return l
    def expr(self):
        e = self.unary()
        while self.peek() == '+': self.eat(); e = ('add', e, self.unary())
        return e
    def unary(self):
        if self.peek() == '&':
            self.eat()
            if self.peek() == 'mut': self.eat()
            return self.unary()
        return self.postfix(self.atom())
    def atom(self):
        x = self.eat()
        if x == '[': return ('list', self.items(']'))
        if x == 'vec!': self.eat('['); return ('list', self.items(']'))
        if x.startswith('"'): return ('str', x[1:-1])
        if re.fullmatch(r'[\d.]+', x): return ('num', x)
        path = [x]
        while self.peek() == '::': self.eat(); path.append(self.eat())
        if self.peek() == '{':
            self.eat(); f = {}
            while self.peek() != '}':
                k = self.eat()
                if self.peek() == ':': self.eat(); f[k] = self.expr()
                else: f[k] = ('path', [k])
                if self.peek() == ',': self.eat()
            self.eat('}'); return ('struct', path[-1], f)
        return ('path', path)
    def postfix(self, e):
        while True:
            if self.peek() == '.':
                self.eat(); m = self.eat(); self.eat('('); e = ('method', e, m, self.items(')'))
            elif self.peek() == '(': self.eat(); e = ('call', e, self.items(')'))
            elif self.peek() == '[': self.eat(); n = self.eat(); self.eat(']'); e = ('index', e, n)
            else: return e
    def stmts(self):
        l = []
        while self.i < len(self.t):
            if self.peek() == 'let':
                self.eat()
                if self.peek() == 'mut': self.eat()
                if self.peek() == '(': self.eat(); a = self.eat(); self.eat(','); b = self.eat(); self.eat(')'); v = (a, b)
                else: v = self.eat()
                if self.peek() == ':': self.eat(); self.eat()
                self.eat('='); l.append(('let', v, self.expr()))
            elif self.peek() == 'assert_eq!':
                self.eat(); self.eat('('); a = self.items(')'); assert len(a) == 2; l.append(('assert', a[0], a[1]))
            else: l.append(('expr', self.expr()))
            if self.peek() == ';': self.eat()
        return l

RECORDS = {  # Rust struct -> (fields in the order of the model's constructor, constructor)
 'Identifier': ('mkIdentifier', 'name srs'), 'VariableAccess': ('mkVA', 'identifier accesses'),
 'IHasA': ('mkIHasA', 'i_has_a_token identifier initial_value'), 'Hai': ('mkHai', 'hai_token version'),
 'Gimmeh': ('mkGimmeh', 'gimmeh_token variable_access'), 'FoundYr': ('mkFoundYr', 'found_yr_token expression'),
 'VariableAssignment': ('mkAssignment', 'variable_access expression r_token'),
 'BukkitSetSlot': ('mkBukkitSetSlot', 'bukkit slot_name value'),
 'Visible': ('mkVisible', 'visible_token expressions exclamation_mark'),
 'IIz': ('mkIIz', 'i_iz_token name arguments'),
 'LoopIterationOperation': ('mkLoopIteration', 'operation operand'),
 'ImInYr': ('ImInYr', 'im_in_yr_token label on_iteration condition code_block end_label'),
 'Wtf': ('Wtf', 'wtf_token omg omg_wtf'), 'WtfOmg': ('WtfOmg', 'omg_token expression block'),
 'WtfOmgWtf': ('WtfOmgWtf', 'omg_wtf_token block'), 'ORly': ('ORly', 'o_rly_token if_true if_false mebbes'),
 'YaRly': ('YaRly', 'ya_rly_token block'), 'NoWai': ('NoWai', 'no_wai_token block'),
 'Mebbe': ('Mebbe', 'mebbe_token condition block'), 'HowIzI': ('HowIzI', 'how_iz_i_token name arguments body'),
 'BinaryOperation': ('BinaryOperation', 'left operator right an_token'),
 'NaryOperation': ('NaryOperation', 'operator expressions mkay_token'),
 'NaryOperationOperand': ('Operand', 'operand an_token'),
}
CALLS = {
 'TokenType::Keyword': 'TKeyword', 'TokenType::Identifier': 'TIdentifier', 'TokenType::Symbol': 'TSymbol',
 'TokenType::Value': 'TValue', 'TokenValue::String': 'VString', 'TokenValue::Number': 'VNumber',
 'TokenValue::Boolean': 'VBoolean', 'NumberToken::Int': 'Int', 'Int': 'Int', 'NumberToken::Float': 'Float', 'Some': 'Some', 'Ok': 'Ok', 'Err': 'Err',
 'ASTExpression::Value': 'Value', 'ASTExpressionValue::LiteralValue': 'LiteralValue',
 'ASTExpressionValue::VariableAccess': 'VariableAccess', 'ASTBlock': 'ASTBlock', 'ASTBlock::from': 'ASTBlock',
 'LoopOperation::UPPIN': 'LUppin', 'LoopOperation::NERFIN': 'LNerfin', 'LoopCondition::TIL': 'LTil', 'LoopCondition::WILE': 'LWile',
 'IHasAInitialValue::Expression': 'InitExpression', 'IHasAInitialValue::Type': 'InitType', 'ASTType::Yarn': 'TyYarn',
 'ASTErrorType::UnexpectedToken': 'UnexpectedToken', 'ASTErrorType::MissingToken': 'MissingToken',
 'Token::from': 'token_from', 'Token::make_line': 'make_line', 'Token::make_block': 'make_block', 'Token::chain_types': 'chain_types',
}
IDENT = {'VecDeque::from', 'Box::new', 'ASTExpression::BinaryOperation', 'ASTExpression::NaryOperation'}
ERRORS = {'IHasAError': 'EIHasA', 'ORlyError': 'EORly', 'VariableAssignmentError': 'EVariableAssignment', 'ExpressionError': 'EExpression'}
PATHS = {'None': 'None', 'NOOB': 'VNoob', 'TokenValue::NOOB': 'VNoob', 'TokenType::Comma': 'TComma', 'TokenType::BukkitSlotAccess': 'TBukkitSlotAccess',
         'TokenType::ExclamationMark': 'TExclamationMark', 'true': 'true', 'false': 'false'}
NODES = {x: 'N' + x for x in 'IHasA Hai ImInYr BukkitSetSlot VariableAssignment Visible FoundYr Wtf ORly IIz HowIzI Gimmeh'.split()}
NXT = 'iter_next'; PKK = 'iter_peek'; STM = 'iter_next_statement'
PARSERS = {  # Rust function -> model function with fuel
 'IHasA': 'i_has_a_parse iter_next iter_peek fuel', 'Visible': 'visible_parse iter_next iter_peek fuel',
 'Gimmeh': 'gimmeh_parse iter_next iter_peek fuel', 'FoundYr': 'found_yr_parse iter_next iter_peek fuel',
 'Hai': 'hai_parse iter_next_statement', 'IIz': 'i_iz_parse iter_next iter_peek fuel',
 'ImInYr': 'im_in_yr_parse iter_next iter_peek iter_next_statement inner_block fuel',
 'HowIzI': 'how_iz_i_parse iter_next iter_peek iter_next_statement inner_block fuel',
 'Wtf': 'wtf_parse iter_next iter_peek iter_next_statement inner_block fuel',
 'ORly': 'o_rly_parse iter_next iter_peek iter_next_statement inner_block fuel',
 'VariableAssignment': 'assignment_parse iter_next iter_peek fuel', 'BukkitSetSlot': 'bukkit_set_slot_parse iter_next iter_peek fuel',
 'Identifier': 'identifier_parse iter_next', 'VariableAccess': 'va_parse iter_next iter_peek fuel',
 'ASTExpression': 'expr_parse iter_next iter_peek fuel',
 'NaryOperation': 'nary_parse iter_next iter_peek (expr_parse iter_next iter_peek fuel) fuel',
}
ITERS = {'Identifier': 'tokens_of id_iter_new id_iter_next', 'VariableAccess': 'va', 'ASTExpression': 'expr', 'NaryOperation': 'expr', 'VariableAssignment': 'assignment'}

def par(s): return s if re.fullmatch(r"[\w.']+|\[.*\]|\"[^\"]*\"", s) and ' ' not in s.replace('; ', ';') else f'({s})'

class Tr:
    def __init__(self): self.kind = {}   # variable -> 'tokens' | 'block' | ...
    def t(self, e):
        k = e[0]
        if k == 'str': return f'(lit "{e[1]}")'
        if k == 'num': return {'1.4': 'f32_1_4'}.get(e[1]) or e[1] + '%Z'
        if k == 'list': return '[' + '; '.join(self.t(x) for x in e[1]) + ']'
        if k == 'struct':
            con, fs = RECORDS[e[1]]; fs = fs.split()
            assert sorted(fs) == sorted(e[2]), (e[1], e[2].keys())
            return f'({con} ' + ' '.join(self.field(f, e[2][f]) for f in fs) + ')'
        if k == 'path':
            p = '::'.join(e[1])
            if p in PATHS: return PATHS[p]
            if len(e[1]) == 1: return p
            if e[1][0] == 'Keywords': return 'Keywords.' + e[1][1]
            raise Exception(p)
        if k == 'index':
            l = par(self.t(e[1])) if e[1][0] != 'index' else f'(nth {e[1][2]} {par(self.t(e[1][1]))} [])'
            return f'(nth {e[2]} {l} default_token)'
        if k == 'add': return f'(token_add {par(self.t(e[1]))} {par(self.t(e[2]))})'
        if k == 'method':
            if e[2] in ('clone', 'to_string'): return self.t(e[1])
            if e[2] == 'into': return self.into(e[1])
            raise Exception(e)
        if k == 'call':
            p = '::'.join(e[1][1])
            if p == 'VecDeque::new': return '[]'
            if p in IDENT: return self.t(e[2][0])
            if p in CALLS: return f'({CALLS[p]} ' + ' '.join(par(self.t(x)) for x in e[2]) + ')'
            r = e[1][1][0]
            if r in ERRORS: return f'({e[1][1][1]} {par(self.t(e[2][0]))})'
            if r == 'Node': return f'(N{e[1][1][1]} {par(self.t(e[2][0]))})'
            if r == 'BinaryOpt' or r == 'NaryOpt': return f'({e[1][1][1]} {par(self.t(e[2][0]))})'
            raise Exception(p)
        raise Exception(e)
    def field(self, f, e):
        if f in ('block', 'code_block', 'body') and e[0] == 'method' and e[1][0] == 'list': return f'(ASTBlock {self.t(e)})'
        return par(self.t(e))
    def into(self, e):
        """.into(): the target type follows from the form of the argument."""
        if e[0] == 'struct' and e[1] in NODES: return f'({NODES[e[1]]} {par(self.t(e))})'
        if e[0] == 'call' and e[1][1][0] in ERRORS: return f'({ERRORS[e[1][1][0]]} {par(self.t(e))})'
        return self.t(e)
    def iterator(self, e):
        """An argument of type StatementIterator."""
        while True:
            if e[0] == 'method' and e[2] in ('clone', 'into'): e = e[1]
            elif e[0] == 'call' and e[1][1] == ['StatementIterator', 'new']: e = e[2][0]
            else: break
        if e[0] == 'path' and self.kind.get(e[1][0]) == 'block': return f'(iter_new (concat {e[1][0]}))'
        return f'(iter_new {par(self.t(e))})'
    def parse_call(self, e):
        """X::parse(first, &mut iterator) -> (kind, model term, size term)"""
        assert e[0] == 'call', e
        p = e[1][1]; a = e[2]
        if p[-1] in ('parse_block_root', 'parse_block_function'):
            stop = {'parse_block_root': 'stop_root', 'parse_block_function': 'stop_function'}[p[-1]]
            return 'block', f'inner_block {stop}', None, a[0]
        assert p[-1] == 'parse', p
        return p[0], PARSERS[p[0]], a[0], a[1]

def run(path, name, body, out):
    tr = Tr(); lets = []; asserts = []; iters = {}; nxt = {}
    parsed = {}
    for s in P(lex(body)).stmts():
        if s[0] == 'let':
            v, e = s[1], s[2]
            if isinstance(v, tuple):
                lets.append(f"let '({v[0]}, {v[1]}) := {tr.t(e)} in"); continue
            if e[0] == 'method' and e[2] == 'unwrap':
                q = e[1]
                if q[0] == 'method' and q[2] == 'pop_front':
                    tgt = q[1]
                    if tgt[0] == 'index':
                        assert tgt[2] == '0'; b = tgt[1][1][0]
                        lets.append(f"let '({v}, {b}) := pop_front_0 {b} in")
                    else:
                        b = tgt[1][0]; lets.append(f"let '({v}, {b}) := pop_front {b} in")
                    continue
                kind, f, a0, a1 = tr.parse_call(q)
                if a1[0] == 'path' and a1[1][0] in iters:      # an iterator variable, threaded
                    st = a1[1][0]
                    lets.append(f"match {f} {par(tr.t(a0))} {st} with ROk {v} {st} =>"); parsed[v] = kind
                else:
                    x = par(tr.t(a0)) if kind != 'NaryOperation' else par(f"{a0[1][1][1]} {par(tr.t(a0[2][0]))}")
                    lets.append(f"match {f} {x} {tr.iterator(a1)} with ROk {v} _ =>"); parsed[v] = kind
                continue
            if e[0] == 'method' and e[2] == 'tokens':
                nxt[v] = (parsed[e[1][1][0]], e[1][1][0], []); continue
            if e[0] == 'method' and e[2] == 'into':
                lets.append(f"let {v} := {tr.iterator(e)} in"); iters[v] = 1; continue
            if e[0] == 'call' and e[1][1][-1] == 'make_block': tr.kind[v] = 'block'
            lets.append(f"let {v} := {tr.t(e)} in")
        elif s[0] == 'assert':
            l, r = s[1], s[2]
            if l[0] == 'method' and l[2] == 'next':
                nxt[l[1][1][0]][2].append(tr.t(r)); continue
            kind, f, a0, a1 = tr.parse_call(l)
            first = '' if a0 is None else ' ' + par(tr.t(a0))
            lhs = f"outcome ({f}{first} {tr.iterator(a1)})"
            asserts.append((lhs, tr.t(r) if kind != 'block' else f"Ok (block_nodes {tr.t(r)})"))
        else: raise Exception(s)
    for it, (kind, v, l) in nxt.items():
        asserts.append((f"calls_{kind} {v} {len(l)}", '[' + '; '.join(l) + ']'))
    assert len(asserts) == 1, (path, name, len(asserts))
    lhs, rhs = asserts[0]
    closes = sum(1 for x in lets if x.startswith('match'))
    ex = os.path.relpath(path, '/repo/src').replace('/', '_').replace('.rs', '') + '_' + name
    ex = ex.replace('parser_', '', 1)
    out.append(f"Example repo_{ex} :\n  " + "\n  ".join(lets) + ("\n  " if lets else "") +
               f"{lhs} =\n  {rhs}" + " | _ => False end" * closes + ".\nProof. vm_compute. reflexivity. Qed.\n")

def main():
    out = []; n = 0
    for d, _, fs in sorted(os.walk(sys.argv[1])):
        for f in sorted(fs):
            if not f.endswith('.rs'): continue
            p = os.path.join(d, f); src = open(p).read()
            first = True
            for m in re.finditer(r'#\[test\]\s*fn (\w+)\(\) \{', src):
                i, depth = m.end(), 1
                while depth:
                    c = src[i]
                    if c == '"': i = src.index('"', i + 1)
                    depth += c == '{'; depth -= c == '}'; i += 1
                l0 = src.count('\n', 0, m.start()) + 1; l1 = src.count('\n', 0, i) + 1
                out.append(f"(** {os.path.relpath(p, '/repo')}:{l0}-{l1} *)")
                run(p, m.group(1), src[m.end():i - 1], out); n += 1
    print(open(os.path.join(os.path.dirname(os.path.abspath(__file__)), 'repotests_head.txt')).read())
    print("\n".join(out))
    print(f"{n} tests", file=sys.stderr)
main()
