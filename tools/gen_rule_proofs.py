#!/usr/bin/env python3
"""Generate rocq/theories/Rules<Table>_Proofs.v: one lemma per rewrite rule."""
import os,sys
here=os.path.dirname(os.path.abspath(__file__)); sys.path.insert(0,here)
from rules_ast import load
B={36,38,163,165,625,626,827,828,829,830,833,834,835,836}
C={65,150,184,269,507,633,637}
T={}
def put(t,ls):
    for l in ls: T[l]=t
put('ruleB',[36,38,163,165]); put('ruleC',[65,184,633,637]); put('ruleS',[150,269,507])
put('rule2',[46,49,113,117,129,133,138,142,146,221,222,232,236,248,252,257,261,265,300,323,336,337,338,339,340,341,362,363,
 414,415,416,417,419,420,421,422,423,424,425,426,427,429,430,432,433,434,435,442,450,452,454,
 490,491,492,495,499,502,514,517,521,524,586,609,612,618,620])
H={299:"rule2. right. f_equal. replace (z + (q * k0 + k)) with (z + k + k0 * q) by ring. rewrite ediv_shift by auto. ring",
}
files={'Min':['min'],'Max':['max'],'Less':['less'],'Div':['div','mod','equal'],'Rest':['add','sub','mul','logical_and','logical_or','logical_not','select','call']}
R=load()
tabs=[]
for f,ts in files.items():
    o=["(** GENERATED by tools/gen_rule_proofs.py: the value of the replacement refines that of the",
       "    left hand side, for each rewrite rule of simplify_rules.h (tables: %s). *)"%', '.join(ts),
       "From Coq Require Import ZArith List Bool Lia.",
       "From Verif Require Import Arith_Model Arith_Spec Arith_Proofs Expr_Model Expr_Spec Expr_Proofs Rewrite_Model Rewrite_Proofs RuleTac Rules.",
       "Import ListNotations.","Open Scope Z_scope.",""]
    for t in ts:
        names=[]
        for r in R[t]:
            l=r['line']; q='small' if l in C else 'in64'; fl='true' if l in B else 'false'
            tac=H.get(l) or T.get(l,'rule')
            o.append("Lemma ok_%s_%d : rule_ok %s %s r_%s_%d. Proof. %s. Qed."%(t,l,q,fl,t,l,tac))
            names.append("ok_%s_%d"%(t,l))
        tabs.append((t,names))
    open(os.path.join(here,'../rocq/theories/Rules%s_Proofs.v'%f),'w').write('\n'.join(o))

o=["(** GENERATED by tools/gen_rule_proofs.py: every rule of every table is valid. *)",
       "From Coq Require Import ZArith List Bool.",
       "From Verif Require Import Arith_Model Expr_Model Expr_Spec Expr_Proofs Rewrite_Model Rewrite_Proofs RuleTac Rules %s."%' '.join('Rules%s_Proofs'%f for f in files),
       "Import ListNotations.",""]
for t,names in tabs:
    o.append("Lemma %s_rules_ok : Forall rule_valid %s_rules."%(t,t))
    o.append("Proof.\n  exact ("+"\n    ".join("Forall_cons (P := rule_valid) r_%s ok_%s ("%(n[3:],n[3:]) for n in names)+"Forall_nil _"+")"*len(names)+").\nQed.\n")
open(os.path.join(here,'../rocq/theories/RulesAll_Proofs.v'),'w').write('\n'.join(o))
