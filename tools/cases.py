"""Writes rocq/theories/Model/Cases.v from the text of the bundled case files (parsed, not run)."""
import ast, re, sys
from fractions import Fraction
NAMES = ['case4gs', 'case6ww', 'case9', 'case9Q', 'case14', 'case24_ieee_rts', 'case30', 'case30Q', 'case30pwl',
         'case39', 'case57', 'case118', 'case300']
SRC = '/repo/pypower/%s.py'

def number(node, text):
    s = ast.get_source_segment(text, node).replace(' ', '')
    return Fraction(s)                    # exact decimal, as written

def table(node, text):
    return [[number(c, text) for c in r.elts] for r in node.elts]

def read(name):
    text = open(SRC % name).read()
    out = {}
    for n in ast.walk(ast.parse(text)):
        if isinstance(n, ast.Assign) and isinstance(n.targets[0], ast.Subscript):
            k = n.targets[0].slice
            k = k.value if isinstance(k, ast.Constant) else ast.literal_eval(k)
            v = n.value
            if isinstance(v, ast.Call) and getattr(v.func, 'id', '') == 'array':
                out[k] = table(v.args[0], text)
            elif k == 'baseMVA':
                out[k] = number(v, text)
            else:
                print(name, 'skipped', k, file=sys.stderr)
    return out

def lit(x):
    if x.denominator == 1:
        return 'i %d' % x.numerator if x >= 0 else 'i (%d)' % x.numerator
    return 'q %d %d' % (x.numerator, x.denominator) if x >= 0 else 'q (%d) %d' % (x.numerator, x.denominator)

def tab(t):
    return '[' + ';\n    '.join('[' + '; '.join(lit(c) for c in r) + ']' for r in t) + ']'

def opt(t):
    return 'Some\n   ' + tab(t) if t else 'None'

HEAD = '''(** The bundled cases, with the numbers as written in pypower/case*.py.  Written by tools/cases.py.
    A number is a numerator over a positive denominator. *)
From Coq Require Import String.
From Verif Require Import Lib.Fld Model.Ext2int.
Local Open Scope Z_scope.

Definition dec : Type := (Z * positive)%type.
Record bundle : Type := Bundle {
  b_name : string; b_base : Z; b_bus : list (list dec); b_gen : list (list dec); b_branch : list (list dec);
  b_areas : option (list (list dec)); b_gencost : option (list (list dec)) }.

Definition value {K : Type} {F : Fld K} (a : dec) : K :=
  if Pos.eqb (snd a) 1 then fofZ (fst a) else (fofZ (fst a) / fofZ (Zpos (snd a)))%K.
Definition values {K : Type} {F : Fld K} : list (list dec) -> list (list K) := map (map value).
(** the case as the functions of the library get it *)
Definition case_of {K : Type} {F : Fld K} (b : bundle) : ppc_of K :=
  {| p_bus := values (b_bus b); p_gen := values (b_gen b); p_branch := values (b_branch b);
     p_gencost := option_map values (b_gencost b); p_areas := option_map values (b_areas b);
     p_A := None; p_N := None; p_order := None |}.

Local Notation q n d := (n%Z, d%positive).
Local Notation i n := (n%Z, 1%positive).
'''

def tree(c):
    """pairs of bus numbers, each joining a new bus to those reached from the reference buses"""
    reached = {int(r[0]) for r in c['bus'] if r[1] == 3}
    t, more = [], True
    while more:
        more = False
        for r in c['branch']:
            a, b = int(r[0]), int(r[1])
            if r[10] == 1 and (a in reached) != (b in reached):
                t.append((a, b) if a in reached else (b, a))
                reached |= {a, b}
                more = True
    return t

def main():
    out = [HEAD]
    for n in NAMES:
        c = read(n)
        assert c['baseMVA'].denominator == 1
        out.append('(** pypower/%s.py *)\nDefinition %s : bundle := Bundle "%s" %d\n   %s\n   %s\n   %s\n   (%s)\n   (%s).\n' % (
            n, n, n, c['baseMVA'], tab(c['bus']), tab(c['gen']), tab(c['branch']), opt(c.get('areas')), opt(c.get('gencost'))))
    out.append('Definition bundled : list bundle :=\n  [%s].\n' % '; '.join(NAMES))
    open('/verif/rocq/theories/Model/Cases.v', 'w').write('\n'.join(out))
    out = ['(** Spanning trees of the bundled cases, as certificates that they are connected.  Written by tools/cases.py. *)',
           'From Coq Require Import ZArith List.', 'From Verif Require Import Model.Cases.', 'Import ListNotations.', 'Local Open Scope Z_scope.\n']
    out.append('Definition trees : list (bundle * list (Z * Z)) :=\n  [%s].\n' % ';\n   '.join(
        '(%s, [%s])' % (n, '; '.join('(%d, %d)' % e for e in tree(read(n)))) for n in NAMES if n != 'case300'))
    open('/verif/rocq/theories/Proofs/CasesTrees.v', 'w').write('\n'.join(out))

if __name__ == '__main__':
    main()
