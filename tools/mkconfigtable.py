"""Writes rocq/theories/ConfigTable.v from the text of default_input_parameters.py
(parsed, not run)."""
import ast, sys
from fractions import Fraction

src = sys.argv[1] if len(sys.argv) > 1 else '/repo/default_input_parameters.py'
out = sys.argv[2] if len(sys.argv) > 2 else '/verif/rocq/theories/ConfigTable.v'
tree = ast.parse(open(src).read())
table = [n for n in tree.body if isinstance(n, ast.Assign)][0].value


def num(v):
    f = Fraction(repr(v)) if isinstance(v, float) else Fraction(v)
    return str(f.numerator) if f.denominator == 1 else '(%d / %d)' % (f.numerator, f.denominator)


def val(n):
    if isinstance(n, ast.Constant):
        v = n.value
        if v is None:
            return 'PNone'
        if isinstance(v, bool):
            return 'PBool %s' % str(v).lower()
        if isinstance(v, int):
            return 'PNum %d' % v
        if isinstance(v, float):
            return 'PNum %s' % num(v)
        if isinstance(v, str):
            return 'PStr "%s"' % v
    if isinstance(n, (ast.Tuple, ast.List)) and not n.elts:
        return 'PList []'
    if isinstance(n, ast.UnaryOp) and isinstance(n.op, ast.USub):
        if isinstance(n.operand, ast.Name):
            return 'PNum (- %s)' % n.operand.id
        return 'PNum (%s)' % num(-n.operand.value)
    if isinstance(n, ast.Name):
        return 'PNum %s' % n.id
    raise ValueError(ast.dump(n))


def names(n):
    if isinstance(n, ast.Call):  # set()
        return []
    return [e.value for e in n.elts]


def wrap(items, ind='   '):
    lines, cur = [], ind
    for k, x in enumerate(items):
        piece = x + (';' if k < len(items) - 1 else '')
        if len(cur) + len(piece) + 1 > 100 and cur.strip():
            lines.append(cur)
            cur = ind
        cur += (' ' if cur.strip() else '') + piece
    lines.append(cur)
    return '\n'.join(lines)


res = ['''(** The table of the input parameters, default_input_parameters.py:6-461.
    Written by tools/mkconfigtable.py from the text of that file.  The physical
    constants are arguments.  Names in the order of the file; a key given twice
    is given twice here (see [dict_of] in Config.v). *)
From Coq Require Import String.
From Verif Require Import Num ConfigVal.
Local Open Scope string_scope.
Local Open Scope list_scope.
Local Open Scope R_scope.
''']
for k, v in zip(table.keys, table.values):
    if k.value == 'superparameters':
        res.append('(** lines %d-%d *)\nDefinition superparameters : list string := [%s].\n' % (
            k.lineno, v.end_lineno, '; '.join('"%s"' % x for x in names(v))))
        continue
    sec = {a.value: b for a, b in zip(v.keys, v.values)}
    if k.value.startswith('combined'):
        assert not names(sec['mandatory']) and not sec['optional'].keys
        continue
    res.append('(** lines %d-%d *)' % (k.lineno, v.end_lineno))
    res.append('Definition %s_mandatory : list string :=\n  [\n%s].' % (k.value, wrap(['"%s"' % x for x in names(sec['mandatory'])])))
    o = sec['optional']
    items = ['("%s", %s)' % (a.value, val(b)) for a, b in zip(o.keys, o.values)]
    res.append('Definition %s_optional (m_e m_p qe : R) : list (string * pval) :=\n  [\n%s].\n' % (k.value, wrap(items)))
open(out, 'w').write('\n'.join(res))
