#!/usr/bin/env python3
"""Translate the quantity families and named units of /repo/scicpp/core/units/*.hpp into rocq/theories/UnitsTable.v.

Purely syntactic: each `using f = ...;` alias template becomes a Definition, each unit alias and literal macro a table entry."""
import re, sys
D = "/repo/scicpp/core/units/"
FILES = ["units.hpp", "chemical.hpp", "electromagnetism.hpp", "photometry.hpp", "thermal.hpp"]

def strip(src):
    # drop the macro definitions (modelled by hand), keep line numbers
    out, skip = [], False
    for l in src.split("\n"):
        d = l.startswith("#")
        if d or skip:
            skip = l.rstrip().endswith("\\")
            out.append("")
        else:
            out.append(re.sub(r"//.*", "", l))
    return "\n".join(out)

def parse_args(s, i):
    """s[i] is just after '<': returns (list of arg strings, index after '>')"""
    args, depth, cur = [], 1, ""
    while True:
        c = s[i]
        if c == "<": depth += 1
        if c == ">": depth -= 1
        if depth == 0:
            args.append(cur.strip()); return args, i + 1
        if c == "," and depth == 1:
            args.append(cur.strip()); cur = ""
        else: cur += c
        i += 1

def split(t):
    t = " ".join(t.split())
    m = re.match(r"([\w:]+)\s*<", t)
    if not m: return t, None
    a, j = parse_args(t, m.end())
    return m.group(1), a

PREF = ["atto", "femto", "pico", "nano", "micro", "milli", "centi", "deci", "deca", "hecto", "kilo", "mega", "giga", "tera", "peta", "exa"]
def num(s): return s.replace("LL", "").strip()
def z(s):
    s = num(s)
    return f"({s})" if not re.fullmatch(r"\d+", s) else s

def ratio(t):
    """a std::ratio expression, as a Coq ratio"""
    h, a = split(t)
    if h.startswith("std::") and h[5:] in PREF: return "std_" + h[5:]
    if h == "std::ratio": return f"(mk_ratio {z(a[0])} {z(a[1]) if len(a) > 1 else 1})"
    if h == "std::ratio_divide": return f"(std_ratio_divide {ratio(a[0])} {ratio(a[1])})"
    if h == "std::ratio_multiply": return f"(std_ratio_multiply {ratio(a[0])} {ratio(a[1])})"
    assert a is None, t
    return h.replace("std::", "")

def scale(t):
    if t == "Scale": return "s"
    h, a = split(t)
    assert h == "scale", t
    return f"(scale {ratio(a[0])})"

def qty(t):
    h, a = split(t)
    if h == "quantity_divide": return f"(qdiv {qty(a[0])} {qty(a[1])})"
    if h == "quantity_multiply": return f"(qmul {qty(a[0])} {qty(a[1])})"
    if h == "quantity_invert": return f"(qinv {qty(a[0])})"
    if h == "quantity_root": return f"(qroot {a[0]} {qty(a[1])})"
    if h == "get_base_quantity":
        off = "zero_ratio"
        if len(a) == 5: off = "o"
        return f"(base_quantity ufuel 11 {a[0]} {scale(a[3])} {off})"
    name = h
    if h == "temperature":
        return f"(temperature {scale(a[1]) if len(a) > 1 else 'one_rr'} {ratio(a[2]) if len(a) > 2 else 'zero_ratio'})"
    if len(a) == 1:
        if name in alias: return f"({alias[name]})"
        return f"({name} one_rr)"
    return f"({name} {scale(a[1])})"

alias = {}
fams, rats, entries = [], [], []
for f in FILES:
    src = strip(open(D + f).read())
    items = []
    for m in re.finditer(r"template\s*<([^;{}()]*?)>\s*using\s+(\w+)\s*=\s*([^;]*);", src):
        items.append((m.start(), "T", m))
    for m in re.finditer(r"(?<!>)\n\s*using\s+(\w+_ratio)\s*=\s*([^;]*);", src):
        items.append((m.start() + 1, "R", m))
    for m in re.finditer(r"SCICPP_CORE_UNITS_(SET_LITERAL_RATIO2|SET_LITERAL_RATIO|SET_LITERAL|DEFINE_PREFIXES_ALIAS)\(([^)]*)\)", src):
        items.append((m.start(), "M", m))
    items.sort(key=lambda x: x[0])
    for pos, k, m in items:
        if k == "T":
            l0 = src[:m.start(2)].count("\n") + 1; l1 = src[:m.end()].count("\n") + 1
        else:
            l0 = src[:pos].count("\n") + 1; l1 = src[:m.end()].count("\n") + 1
        cite = f"{f}:{l0}" + (f"-{l1}" if l1 != l0 else "")
        if k == "R":
            rats.append(f"(** {cite} *)\nDefinition {m.group(1)} : ratio := {ratio(m.group(2))}.")
        elif k == "T":
            params, name, rhs = m.groups()
            if "Scale" in params:
                if name == "temperature":
                    fams.append((cite, name, "(s : rr) (o : ratio)", qty(rhs)))
                else:
                    fams.append((cite, name, "(s : rr)", qty(rhs)))
            else:
                assert "T = double" in params, params
                e = qty(rhs)
                alias[name] = e.strip("()") if False else e[1:-1]
                entries.append((cite, f'[("{name}", {e[1:-1]})]'))
        else:
            a = [x.strip() for x in m.group(2).split(",")]
            # commas inside <> (none used) would break this
            mac = m.group(1)
            fam = a[0]
            def app(sc, off=None):
                if fam == "temperature": return f"temperature {sc} {off or 'zero_ratio'}"
                assert off is None
                return f"{fam} {sc}"
            if mac == "DEFINE_PREFIXES_ALIAS":
                fn = "(fun s => temperature s zero_ratio)" if fam == "temperature" else fam
                entries.append((cite, f'prefixes_alias {fn} "{a[1]}"'))
            elif mac == "SET_LITERAL":
                entries.append((cite, f'[("{a[1]}", {app("(scale " + ratio(a[2]) + ")")})]'))
            elif mac == "SET_LITERAL_RATIO":
                def comp(x):
                    mm = re.fullmatch(r"(\w+)::(num|den)", x)
                    return f"(r_{mm.group(2)} {mm.group(1)})" if mm else z(x)
                entries.append((cite, f'[("{a[1]}", {app(f"(scale (mk_ratio {comp(a[2])} {comp(a[3])}))")})]'))
            else:
                entries.append((cite, f'[("{a[1]}", {app(f"(scale (mk_ratio {z(a[2])} {z(a[3])}))", f"(mk_ratio {z(a[4])} {z(a[5])})")})]'))

o = []
o.append('''(** Generated by tools/units.py from scicpp/core/units/{units,chemical,electromagnetism,photometry,thermal}.hpp: the quantity
    families (alias templates with a Scale parameter), the named units and the literals.  Each entry cites its source. *)
From Verif Require Import Base Arith Quantity.
From Coq Require Import ZArith List String.
Import ListNotations.
Open Scope string_scope.
Open Scope Z_scope.

(** Bound on the steps of the compile-time searches (enough for every definition below). *)
Definition ufuel : nat := 200%nat.

Definition bind2 (f : uty -> uty -> option uty) (a b : option uty) : option uty :=
  match a, b with Some x, Some y => f x y | _, _ => None end.
(** quantity.hpp:475-487  quantity_multiply, quantity_divide, quantity_invert, quantity_root *)
Definition qmul := bind2 (ty_mul ufuel).
Definition qdiv := bind2 (ty_div ufuel).
Definition qinv (a : option uty) : option uty := match a with Some x => ty_inv ufuel x | None => None end.
Definition qroot (k : Z) (a : option uty) : option uty := match a with Some x => ty_root ufuel k x | None => None end.

(** quantity.hpp:56-57  scale<std::ratio<n, d>> *)
Definition scale (r : ratio) : rr := mk_rr (r_num r) (r_den r) 1.

(** <ratio>: std::ratio_multiply, std::ratio_divide and the SI prefixes *)
Definition std_ratio_multiply (x y : ratio) : ratio := mk_ratio (r_num x * r_num y) (r_den x * r_den y).
Definition std_ratio_divide (x y : ratio) : ratio := mk_ratio (r_num x * r_den y) (r_den x * r_num y).
Definition std_atto := mk_ratio 1 1000000000000000000.
Definition std_femto := mk_ratio 1 1000000000000000.
Definition std_pico := mk_ratio 1 1000000000000.
Definition std_nano := mk_ratio 1 1000000000.
Definition std_micro := mk_ratio 1 1000000.
Definition std_milli := mk_ratio 1 1000.
Definition std_centi := mk_ratio 1 100.
Definition std_deci := mk_ratio 1 10.
Definition std_deca := mk_ratio 10 1.
Definition std_hecto := mk_ratio 100 1.
Definition std_kilo := mk_ratio 1000 1.
Definition std_mega := mk_ratio 1000000 1.
Definition std_giga := mk_ratio 1000000000 1.
Definition std_tera := mk_ratio 1000000000000 1.
Definition std_peta := mk_ratio 1000000000000000 1.
Definition std_exa := mk_ratio 1000000000000000000 1.

(** units.hpp:200-234  SCICPP_CORE_UNITS_DEFINE_PREFIXES_ALIAS(quantity, base_unit) *)
Definition prefixes_alias (quantity : rr -> option uty) (base_unit : string) : list (string * option uty) :=
  [("atto" ++ base_unit, quantity (scale std_atto));
   ("femto" ++ base_unit, quantity (scale std_femto));
   ("pico" ++ base_unit, quantity (scale std_pico));
   ("nano" ++ base_unit, quantity (scale std_nano));
   ("micro" ++ base_unit, quantity (scale std_micro));
   ("milli" ++ base_unit, quantity (scale std_milli));
   ("centi" ++ base_unit, quantity (scale std_centi));
   ("deci" ++ base_unit, quantity (scale std_deci));
   (base_unit, quantity one_rr);
   ("deca" ++ base_unit, quantity (scale std_deca));
   ("hecto" ++ base_unit, quantity (scale std_hecto));
   ("kilo" ++ base_unit, quantity (scale std_kilo));
   ("mega" ++ base_unit, quantity (scale std_mega));
   ("giga" ++ base_unit, quantity (scale std_giga));
   ("tera" ++ base_unit, quantity (scale std_tera));
   ("peta" ++ base_unit, quantity (scale std_peta));
   ("exa" ++ base_unit, quantity (scale std_exa))].

(** * Families *)
''')
for c, n, p, e in fams:
    o.append(f"(** {c} *)\nDefinition {n} {p} : option uty := {e[1:-1] if e.startswith('(') else e}.")
o.append("\n(** * Ratios *)\n")
o += rats
o.append("\n(** * Named units and literals *)\n")
o.append("Definition units_table : list (string * option uty) := List.concat [")
o.append(";\n".join(f"  (* {c} *) {e}" for c, e in entries))
o.append("].")
open("/verif/rocq/theories/UnitsTable.v", "w").write("\n".join(o) + "\n")
print(len(fams), "families", len(entries), "entries")
