(* Model_Threads.v -- include/MultiLoop.hpp and include/ThreadGroup.hpp as a transition system.
   Every access to shared state (the atomic counter nrunning, the condition variable) is one step; steps of
   different threads interleave in every order.  The mutexes mx and start_thread_mx are only ever taken by the
   thread that owns the ThreadGroup, so taking them never blocks and is not a step.  Bodies are assumed to return
   (an exception leaving a body ends the program). *)
From Verif Require Import Base.
Local Open Scope Z_scope.

(* where the main thread is: in ThreadGroup::add for index i (ThreadGroup.hpp:57-72) or in the destructor (:49-52).
   MTest: before the test of :61 (or the loop test of MultiLoop.hpp:36);  MPred: before an evaluation of the predicate
   of wait, ThreadGroup.hpp:63;  MWait: the predicate was false, wait is about to block;  MBlocked: waiting to be notified;
   MInc: before nrunning++, :66;  MSpawn: before the thread is created, :67;  MJoin j: joining the j-th thread. *)
Inductive mpc := MTest (i : Z) | MPred (i : Z) | MWait (i : Z) | MBlocked (i : Z) | MInc (i : Z) | MSpawn (i : Z) | MJoin (j : nat) | MRet.
(* where a worker is, ThreadGroup.hpp:67-71 and done, :75-78: not started, in the body, before nrunning--, before notify_one, over *)
Inductive wpc := WNew | WBody | WDec | WNotify | WEnd.
(* the argument arg0, the thread limit nsubthreads it sets for its own thread, ThreadGroup.hpp:68, and the position *)
Record worker := Wk { warg : Z; wbud : Z; wpos : wpc }.
Record tstate := TS { mp : mpc; nrun : Z; wks : list worker }.
Inductive label := Begin (i b : Z) | Finish (i b : Z) | Return | Tau.
Inductive who := Main | Spurious | Worker (k : nat).
Fixpoint upd_nth {A} (k : nat) (x : A) (l : list A) : list A :=
  match l, k with [], _ => [] | _ :: l, O => x :: l | y :: l, S k => y :: upd_nth k x l end.
(* notify_one: wakes the main thread if it is blocked, and is otherwise lost *)
Definition notify (m : mpc) : mpc := match m with MBlocked i => MPred i | _ => m end.
(* one step of the given thread; None if it cannot move.  n, maxt: the loop length and maxthreads = nthreads. *)
Definition tstep (n maxt : Z) (w : who) (s : tstate) : option (label * tstate) :=
  let goto m := Some (Tau, TS m (nrun s) (wks s)) in
  match w with
  | Main => match mp s with
      | MTest i => if i <? n then (if maxt <=? nrun s then goto (MPred i) else goto (MInc i)) else goto (MJoin 0)
      | MPred i => if nrun s <? maxt then goto (MInc i) else goto (MWait i)
      | MWait i => goto (MBlocked i)
      | MBlocked i => None
      | MInc i => Some (Tau, TS (MSpawn i) (nrun s + 1) (wks s))
      | MSpawn i => Some (Tau, TS (MTest (i + 1)) (nrun s) (wks s ++ [Wk i (Z.max 1 (Z.quot maxt n)) WNew]))
      | MJoin j => match nth_error (wks s) j with
          | None => Some (Return, TS MRet (nrun s) (wks s))
          | Some u => match wpos u with WEnd => goto (MJoin (S j)) | _ => None end end
      | MRet => None
      end
  (* a condition variable may wake without being notified *)
  | Spurious => match mp s with MBlocked i => goto (MPred i) | _ => None end
  | Worker k => match nth_error (wks s) k with
      | None => None
      | Some u =>
          let move p := upd_nth k (Wk (warg u) (wbud u) p) (wks s) in
          match wpos u with
          | WNew => Some (Begin (warg u) (wbud u), TS (mp s) (nrun s) (move WBody))
          | WBody => Some (Finish (warg u) (wbud u), TS (mp s) (nrun s) (move WDec))
          | WDec => Some (Tau, TS (mp s) (nrun s - 1) (move WNotify))
          | WNotify => Some (Tau, TS (notify (mp s)) (nrun s) (move WEnd))
          | WEnd => None
          end
      end
  end.
Definition tstart : tstate := TS (MTest 0) 0 [].
(* running a schedule; the trace keeps the visible events *)
Definition seen (l : label) : list label := match l with Tau => [] | _ => [l] end.
Fixpoint exec (n maxt : Z) (sch : list who) (s : tstate) : option (list label * tstate) :=
  match sch with
  | [] => Some ([], s)
  | w :: sch => match tstep n maxt w s with
      | None => None
      | Some (l, s) => match exec n maxt sch s with None => None | Some (tr, s) => Some (seen l ++ tr, s) end
      end
  end.
(* MultiLoop(n,lambda,sequential), MultiLoop.hpp:28-40: the sequential branch runs the bodies one after the other in the
   calling thread, which keeps its own limit *)
Definition in_order (n nt : Z) : list label := flat_map (fun i => [Begin i nt; Finish i nt]) (zrange n) ++ [Return].
(* the traces of MultiLoop: everything that can have been observed at some moment *)
Definition loop_trace (n nt : Z) (sequential : bool) (tr : list label) : Prop :=
  if sequential || (nt <=? 1) then exists rest, tr ++ rest = in_order n nt
  else exists sch s, exec n nt sch tstart = Some (tr, s).
