#!/usr/bin/env python3
"""Generates rocq/theories/NodeModel.v from ecma/parser/nodetype.go and ecma/walk/visitor.go."""
import re, sys
src = open('/repo/ecma/parser/nodetype.go').read().split('\n')
a = next(i for i, l in enumerate(src) if 'N_ILLEGAL NodeType = iota' in l)
b = next(i for i in range(a, len(src)) if src[i].strip() == ')')
names = [m.group(1) for l in src[a:b] for m in [re.match(r'\s*(N_\w+)', l)] if m]
V = open('/repo/ecma/walk/visitor.go').read()
line = lambda i: V.count('\n', 0, i) + 1
fn = {m[1]: (m[2], line(m.start()), line(m.end())) for m in
      re.finditer(r'^func Visit(\w+)\(node parser\.Node, key string, ctx \*VisitorCtx\) \{\n(.*?)^\}', V, re.M | re.S)}
tab = {m[1]: m[2] for m in re.finditer(r'DefaultVisitors\[(\w+)\] = Visit(\w+)', V)}
ini = [line(m.start()) for m in re.finditer(r'DefaultVisitors\[(\w+)\] = Visit(\w+)', V)]
out = []
w = out.append
w('(** Node types and the default visitors.  Generated by tools/gen_nodes.py from')
w('    ecma/parser/nodetype.go and ecma/walk/visitor.go. *)')
w('From Coq Require Import String.')
w('From Verif Require Import Base.')
w('Local Open Scope string_scope.')
w('')
w('(** ecma/parser/nodetype.go:%d-%d NodeType. *)' % (a + 1, b + 1))
w('Inductive nt :=')
for n in names: w('| ' + n)
w('.')
w('')
w('(** The integer value (iota) of a node type. *)')
w('Definition nt_num (t : nt) : N :=')
w('  match t with')
for i, n in enumerate(names): w('  | %s => %d' % (n, i))
w('  end%N.')
w('Definition nt_eqb (a b : nt) : bool := N.eqb (nt_num a) (nt_num b).')
w('')
w('(** Every node type, and that [nt_eqb] is equality. *)')
w('Definition all_nt : list nt :=')
w('  [' + '; '.join(names) + '].')
w('Lemma nt_eqb_spec : forall a b, nt_eqb a b = true <-> a = b.')
w('Proof.')
w('  intros a b. unfold nt_eqb. rewrite N.eqb_eq. split; [|intros ->; reflexivity].')
w('  intro H. assert (K : forall x, nth_error all_nt (N.to_nat (nt_num x)) = Some x) by (intros []; reflexivity).')
w('  pose proof (K a) as Ha. pose proof (K b) as Hb. rewrite H in Ha. congruence.')
w('Qed.')
w('')
w('(** What the body of a visitor does between the calls for the events of the node: ctx.WalkCtx.PushScope()')
w('    with its deferred PopScope, VisitNode(n.K(), "K", ctx), VisitNodes(n, n.K(), "K", ctx); the last two are')
w('    each followed by [if ctx.WalkCtx.Stopped() { return }]. *)')
w('Inductive vstep := VScope | VOne (k : string) | VMany (k : string).')
w('(** A visitor: the node type whose _BEFORE and _AFTER events it calls; [None]: CallListener for both and')
w('    nothing else, the visitors of nodes without children. *)')
w('Record vis := mk_vis { v_ev : nt; v_steps : option (list vstep) }.')
w('')
w('(** ecma/walk/visitor.go:%d-%d DefaultVisitors, with the visitors of lines %d-%d. *)' % (min(ini), max(ini), min(f[1] for f in fn.values()), max(f[2] for f in fn.values())))
w('Definition visitor (t : nt) : option vis :=')
w('  match t with')
for n in names:
    if n not in tab: continue
    body, l1, l2 = fn[tab[n]]
    ev = 'N_' + re.search(r'\(N_(\w+)_BEFORE', body)[1]
    assert '(%s_AFTER' % ev in body and ev in names
    if 'n := node' not in body:
        assert re.fullmatch(r'\tCallListener\(%s_BEFORE, node, key, ctx\)\n\tCallListener\(%s_AFTER, node, key, ctx\)\n' % (ev, ev), body), body
        w('  | %s => Some (mk_vis %s None) (* Visit%s, %d *)' % (n, ev, tab[n], l1)); continue
    steps = []
    rest = re.sub(r'\tn := node\.\(\*parser\.%s\)\n' % tab[n], '', body, 1)
    called = False
    while rest.strip():
        for pat, act in [(r'\s*CallVisitor\(%s_BEFORE, n, key, ctx\)\n\tdefer CallVisitor\(%s_AFTER, n, key, ctx\)\n' % (ev, ev), 'call'),
                         (r'\s*ctx\.WalkCtx\.PushScope\(\)\n\tdefer ctx\.WalkCtx\.PopScope\(\)\n', 'scope'),
                         (r'\s*VisitNode\(n\.(\w+)\(\), "(\w+)", ctx\)\n\tif ctx\.WalkCtx\.Stopped\(\) \{\n\t\treturn\n\t\}\n', 'one'),
                         (r'\s*VisitNodes\(n, n\.(\w+)\(\), "(\w+)", ctx\)\n\tif ctx\.WalkCtx\.Stopped\(\) \{\n\t\treturn\n\t\}\n', 'many')]:
            m = re.match(pat, rest)
            if m: break
        else: sys.exit('unknown step in Visit%s: %r' % (tab[n], rest))
        rest = rest[m.end():]
        if act == 'call':
            assert not called and steps in ([], ['VScope']); called = True
        elif act == 'scope':
            assert (not called) == (steps == []); steps.append('VScope')
        else:
            assert m[1] == m[2] and called
            steps.append('%s "%s"' % ('VOne' if act == 'one' else 'VMany', m[1]))
    for e in ('Before', 'After'):
        assert tab[n + '_' + e.upper()] == tab[n] + e
        assert fn[tab[n] + e][0] == '\tCallListener(%s_%s, node, key, ctx)\n' % (ev, e.upper())
    w('  | %s => Some (mk_vis %s (Some [%s])) (* Visit%s, %d *)' % (n, ev, '; '.join(steps), tab[n], l1))
w('  | _ => None')
w('  end.')
open('/verif/rocq/theories/NodeModel.v', 'w').write('\n'.join(out) + '\n')
