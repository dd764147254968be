(* Prop_ArgCache.v -- C135: caches keyed by an object and an argument. *)
From Verif Require Import Base BaseFacts Model_Observer Model_ArgCache Spec_ArgCache Proofs_ArgCache.
Local Open Scope Z_scope.

(* C135: whatever the history of creations, deaths and reuse of addresses, of look-ups and insertions, every answer is the value that the
   object now living at the address has for the argument, and make_obj runs at most once per object and argument.  keep = false is the
   cache, keep = true the object bank *)
Theorem C135_histories V keep ord make (h : list (aevent V)) vs k : (forall l, Permutation (ord l) l) -> facts_of make h no_facts = Some (vs, k) ->
  exists s, aevs keep ord make h acst0 = Ok (vs, s) /\ icalls s = fcalls k /\ NoDup (icalls s) /\
    forall x a, a_contains x a (ic s) = match fat k x with Some i => match fval k i a with Some _ => true | None => false end | None => false end.
Proof.
  intros Ho E. destruct (aevs_ok keep ord make Ho h acst0 no_facts vs k (astart_ok make) E) as (s & Es & I). exists s. split; [assumption|]. destruct I. rewrite v_calls. split; [reflexivity|]. split; [assumption|].
  intros x a. unfold a_contains. rewrite v_tab. destruct (fat k x) as [i|]; [destruct (fval k i a)|]; reflexivity.
Qed.
Print Assumptions C135_histories.
(* a value entered for an object and an argument that has none is what later look-ups of the same object return, until it dies *)
Example C135_case : let h := [ENew 7; ELook 7 1; EEnter 7 2 50; ELook 7 2; ELook 7 1; ENew 8; ELook 8 1; EDel 7; ENew 7; ELook 7 1; ELook 7 2; EDel 8; EDel 7] in
  facts_of (fun i a => 100 * i + a) h no_facts <> None /\
  match aevs false (fun l => l) (fun i a => 100 * i + a) h acst0, aevs true (fun l => l) (fun i a => 100 * i + a) h acst0 with
  | Ok (vs, s), Ok (vs', s') => vs = [None; Some 1; Some 50; Some 50; Some 1; None; Some 101; None; None; Some 201; Some 202; None; None] /\ vs' = vs /\ icalls s = [(0, 1); (1, 1); (2, 1); (2, 2)]
  | _, _ => False
  end.
Proof. cbv zeta. split; [discriminate|]. vm_compute. repeat split. Qed.
(* insert(key,arg,val) does not replace a value: it returns, and keeps, the one that is there *)
Theorem C135_insert_refuted : exists vs s, aevs false (fun l => l) (fun _ _ => 0) [ENew 7; EEnter 7 1 10; EEnter 7 1 20; ELook 7 1] acst0 = Ok (vs, s) /\ vs = [None; Some 10; Some 10; Some 10].
Proof. eexists. eexists. split; reflexivity. Qed.
Print Assumptions C135_insert_refuted.
