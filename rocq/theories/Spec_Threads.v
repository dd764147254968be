(* Spec_Threads.v -- vocabulary for statements about parallel loops: what a trace of events shows. *)
From Verif Require Import Base Model_Threads.
Local Open Scope Z_scope.
Definition begun (tr : list label) : list Z := flat_map (fun l => match l with Begin i _ => [i] | _ => [] end) tr.
Definition finished (tr : list label) : list Z := flat_map (fun l => match l with Finish i _ => [i] | _ => [] end) tr.
(* bodies running, and the threads granted to them *)
Definition running (tr : list label) : Z := Z.of_nat (length (begun tr)) - Z.of_nat (length (finished tr)).
Definition granted (tr : list label) : Z := fold_right (fun l a => match l with Begin _ b => Z.max 1 b | Finish _ b => - Z.max 1 b | _ => 0 end + a) 0 tr.
(* a schedule in which no thread lowers the counter while the main thread is between the evaluation of its waiting
   condition and the moment it blocks *)
Definition misses (w : who) (s : tstate) : bool :=
  match w, mp s with
  | Worker k, MWait _ => match nth_error (wks s) k with Some u => match wpos u with WDec => true | _ => false end | None => false end
  | _, _ => false
  end.
Fixpoint misses_none (n maxt : Z) (sch : list who) (s : tstate) : Prop :=
  match sch with
  | [] => True
  | w :: sch => misses w s = false /\ match tstep n maxt w s with Some (_, s) => misses_none n maxt sch s | None => True end
  end.
Definition spurious (sch : list who) : nat := length (filter (fun w => match w with Spurious => true | _ => false end) sch).
(* no thread can move, except by a spurious wake-up *)
Definition stuck (n maxt : Z) (s : tstate) : Prop := forall w, w <> Spurious -> tstep n maxt w s = None.
