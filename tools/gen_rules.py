#!/usr/bin/env python3
"""Generate rocq/theories/Rules.v from /repo/slinky/builder/simplify_rules.h."""
import os,sys
sys.path.insert(0,os.path.dirname(os.path.abspath(__file__)))
from rules_ast import load
FN={'positive_infinity':'i_positive_infinity','negative_infinity':'i_negative_infinity','abs':'i_abs','and_then':'i_and_then','or_else':'i_or_else'}
def z(n): return str(n) if n>=0 else '(%d)'%n
def P(p):
    k=p[0]
    if k=='wild': return '(PWild %d)'%p[1]
    if k=='const': return '(PConst %d)'%p[1]
    if k=='lit': return '(PLit %s)'%z(p[1])
    if k=='opt': return '(POpt %s %s)'%(P(p[1]),z(p[2]))
    if k=='bin': return '(PBin %s %s %s)'%(p[1],P(p[2]),P(p[3]))
    if k=='not': return '(PNot %s)'%P(p[1])
    if k=='sel': return '(PSel %s %s %s)'%tuple(map(P,p[1:]))
    if k=='call':
        a=p[2:]; return '(PCall%d %s%s)'%(len(a),FN[p[1]],''.join(' '+P(x) for x in a))
    if k=='stair': return '(PStair %s %s %s %s)'%tuple(map(P,p[1:]))
    if k=='eval': return '(REval %s)'%P(p[1])
    if k=='bool': return '(RBool %s)'%P(p[1])
    if k=='pred': return '(RPred %s %d)'%(p[1].replace('is_','k_'),p[2])
    if k=='ssum': return '(RSum %s %s)'%('true' if p[1]=='max' else 'false',' '.join(map(P,p[2:])))
    raise Exception(p)
T=load()
out=['''(** The rewrite rules of the simplifier (slinky/builder/simplify_rules.h).  GENERATED by
    tools/gen_rules.py from that file; every rule cites its lines and its C++ text.
    x y z w u v t are wildcards 0 to 6; c0 to c6 are constants 0 to 6; a > b is b < a;
    a missing last predicate is [PLit 1]. *)
From Coq Require Import ZArith List.
From Verif Require Import Expr_Model Rewrite_Model.
Import ListNotations.
Open Scope nat_scope.
Open Scope Z_scope.
Arguments PWild n%nat_scope.
Arguments PConst n%nat_scope.
Arguments RPred k n%nat_scope.
''']
for t,rs in T.items():
    out.append('(** apply_%s_rules *)'%t)
    for r in rs:
        ln='%d'%r['line'] if r['line']==r['end'] else '%d-%d'%(r['line'],r['end'])
        out.append('(** simplify_rules.h:%s  apply(%s) *)'%(ln,r['text'].replace('*)','* )').replace('(*','( *')))
        out.append('Definition r_%s_%d : rule := Rule %d\n  %s\n  [%s].'%(t,r['line'],r['line'],P(r['lhs']),';\n   '.join('(%s, %s)'%(P(a),P(b) if b else '(PLit 1)') for a,b in r['alts'])))
    out.append('Definition %s_rules : list rule :=\n  [%s].\n'%(t,';\n   '.join('r_%s_%d'%(t,r['line']) for r in rs)))
open(os.path.join(os.path.dirname(os.path.abspath(__file__)),'../rocq/theories/Rules.v'),'w').write('\n'.join(out)+'\n')
