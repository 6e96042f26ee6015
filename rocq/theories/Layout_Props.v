(** C61: what the layout of the allocations of a loop level guarantees. *)
From Coq Require Import ZArith List Bool Lia Permutation.
Import ListNotations.
From Verif Require Import Layout_Model Layout_Spec Layout_Proofs.
Open Scope Z_scope.

(** Given consecutive statements that run the calls lo .. hi, and buffers with lifetimes (from the call that produces the buffer up to the last call that uses it) within lo .. hi, the layout ends after at
    most one iteration for each buffer, and the assert of merge does not fail.  The statement that it returns runs the calls lo .. hi, each exactly once and in the same order, in the same loops; it allocates what was
    allocated before and each of the buffers, exactly once, and the buffers outside of the loops that are inside of this one; each buffer is allocated around all calls of its lifetime; and no buffer is left to be allocated elsewhere.  A constant is declared at most once,
    around the allocations of all the buffers that it is copied to, unless these are not all allocated here: then it is left for a level further out. *)
Theorem C61_laid_out copy_deps outputs copy_inputs cands results constants lo hi :
  chain lo hi results -> results <> [] ->
  NoDup (map sym cands) -> (forall c, In c cands -> lo <= from_ c <= to_ c /\ to_ c <= hi) -> incl (map sym cands) outputs ->
  forall fuel, (length cands < fuel)%nat -> exists r kept placed,
    lay_out_allocations copy_deps fuel outputs copy_inputs cands results constants = Some (Some r, [], kept) /\
    start r = lo /\ stop r = hi /\ sound r /\
    leaves (body r) = upto lo hi /\ skeleton (body r) = skeleton (flat_map body results) /\
    Permutation (allocs (body r)) (map sym cands ++ allocs (flat_map body results)) /\
    (forall outer, Permutation (scopes outer (body r)) (map (pair outer) (map sym cands) ++ scopes outer (flat_map body results))) /\
    (forall c, In c cands -> exists l, within (Alloc (sym c) l) (body r) /\ forall k, from_ c <= k <= to_ c -> In k (leaves l)) /\
    (forall n, within n (flat_map body results) -> within n (body r)) /\
    Permutation constants (placed ++ kept) /\
    Permutation (consts (body r)) (placed ++ consts (flat_map body results)) /\
    (forall c, In c placed -> exists l, within (Const c l) (body r) /\ forall d, In d (copy_deps c) -> In d (allocs l)) /\
    (forall c, In c kept -> exists d, In d (copy_deps c) /\ ~ In d (allocs (body r))).
Proof.
  intros C NE N V INC fuel LEN.
  destruct (layout_good copy_deps fuel outputs copy_inputs cands results constants lo hi C NE N) as (r & kept & K & E & ST & P & D); [|exact INC | exact LEN |].
  { apply Forall_forall. intros c I. destruct (V c I). unfold valid. lia. }
  destruct ST as [[A1 A2 A5 A0 A3 A4] B1 B2]. pose proof A1 as (E1 & SR & E2). cbn [chain] in E2. assert (BB : bodies [r] = body r) by apply app_nil_r. rewrite BB in *.
  exists r, kept, K. split; [exact E|]. split; [exact E1|]. split; [lia|]. split; [exact SR|]. split; [rewrite <- BB; exact (chain_leaves _ _ _ A1)|]. split; [exact A5|]. split; [exact A3|]. split; [exact A0|]. split.
  { intros c I. rewrite Forall_forall in B1. destruct (B1 c I) as (l & W & X). exists l. split; [exact W|]. intros k Q. apply X, upto_in, Q. }
  split; [exact A2|]. split; [exact P|]. split; [exact A4|]. split; [|exact D].
  intros c I. rewrite Forall_forall in B2. exact (B2 c I).
Qed.

(** Four calls in a row, 0 -> 1 -> 2 -> 3: the buffers 10, 11 and 12 are passed on, 13 (which is the input of a copy, to 12) and the constant 20 depends on 11. *)
Definition ex_results : list range := map (fun k => Range [Leaf k] k k []) [0; 1; 2; 3].
Definition ex_cands : list candidate := [Candidate 10 0 1; Candidate 11 1 2; Candidate 12 2 3; Candidate 13 1 3].
Definition ex_deps (b : nat) : list nat := match b with 13 => [12] | 20 => [11] | 21 => [99] | _ => [] end%nat.
Example C61_ex : lay_out_allocations ex_deps 5 [10; 11; 12; 13]%nat (Nat.eqb 13) ex_cands ex_results [20; 21]%nat =
  Some (Some (Range [Const 20 [Alloc 13 [Alloc 11 [Alloc 10 [Leaf 0; Leaf 1]; Alloc 12 [Leaf 2; Leaf 3]]]]] 0 3 [13; 11; 10; 12]%nat), [], [21]%nat).
Proof. vm_compute. reflexivity. Qed.
Example C61_ex_meets : chain 0 3 ex_results /\ ex_results <> [] /\ NoDup (map sym ex_cands) /\ (forall c, In c ex_cands -> 0 <= from_ c <= to_ c /\ to_ c <= 3) /\ incl (map sym ex_cands) [10; 11; 12; 13]%nat.
Proof.
  split; [|split; [discriminate|]].
  - unfold ex_results. cbn [map chain start stop]. unfold sound. cbn [start stop body allocations]. repeat (split; [vm_compute; congruence || reflexivity|]); try (split; [vm_compute; congruence|]).
    repeat match goal with |- _ /\ _ => split | |- _ <= _ => lia | |- leaves _ = _ => reflexivity | |- forall _, _ => intro; reflexivity | |- _ = _ => lia end.
  - split; [repeat constructor; cbn; intuition discriminate|]. split; [|intros x X; exact X].
    intros c [<-|[<-|[<-|[<-|[]]]]]; cbn [from_ to_]; lia.
Qed.

(** The hypothesis about the lifetimes is needed for all of them.  If a buffer (5) is stored in this loop although a call outside of the loop uses it, its lifetime has no end when this loop is laid out (the -1 of
    pipeline.cc:618): then another buffer (6), which is used in this loop only, by the calls 0 and 2, is not allocated where it is produced. *)
Theorem C61_lifetime_refuted : exists results cands r,
  chain 0 2 results /\ NoDup (map sym cands) /\ In (Candidate 6 0 2) cands /\ (forall c, In c cands -> 0 <= from_ c <= 2) /\
  lay_out_allocations (fun _ => []) 4 [5; 6]%nat (fun _ => false) cands results [] = Some (Some r, [], []) /\
  forall l, within (Alloc 6 l) (body r) -> ~ In 0 (leaves l).
Proof.
  exists (map (fun k => Range [Leaf k] k k []) [0; 1; 2]), [Candidate 5 1 (-1); Candidate 6 0 2]. eexists. split.
  { cbn [map chain start stop]. unfold sound. cbn [start stop body allocations].
    repeat match goal with |- _ /\ _ => split | |- _ <= _ => lia | |- leaves _ = _ => reflexivity | |- forall _, _ => intro; reflexivity | |- _ = _ => lia end. }
  split; [repeat constructor; cbn; intuition discriminate|]. split; [right; left; reflexivity|]. split; [intros c [<-|[<-|[]]]; cbn [from_]; lia|]. split; [vm_compute; reflexivity|].
  cbn [body]. intros l W.
  repeat match goal with
  | H : within _ [] |- _ => apply within_nil in H; contradiction
  | H : within _ (_ :: _) |- _ => apply within_cons in H; cbn [children] in H; destruct H as [H|[H|H]]
  | H : Alloc _ _ = Leaf _ |- _ => discriminate
  | H : Alloc _ _ = Alloc _ _ |- _ => first [discriminate | injection H as ->]
  end.
  cbn. intros [X|[X|[]]]; discriminate.
Qed.
