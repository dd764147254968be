(* Model_CuMask.v -- aggregation of rows of complex matrices by a mask on a device: cuda/TensorView_accumulators.cu with the arrays that include/Rmask1.hpp prepares for it,
   called by tensor_views/Aggregator.hpp:52-62 and tensor_views/TensorView_accumulator.hpp:41-51.  Launches as in Model_Cuda; what a thread does to one cell (loading it into
   shared memory, adding, storing it) is one step.  A complex matrix is a view with a last axis of side two (Model_CView).  int arithmetic unbounded. *)
From Verif Require Import Base Model_Index Model_View Model_Tensor Model_RView Model_Cuda Model_CuBlas Model_Mask.
Local Open Scope Z_scope.

Section S.
Context {R : cring}.
Notation memR := (mem (car R)).
(* the array arrg is one of floats that hold numbers of rows, lengths and factors -- include/Rmask1.hpp:40; here a whole number is kept as it is (a float is exact up to 2^24) *)
Inductive tcell : Type := TInt (z : Z) | TFac (c : R).
(* one list in the array -- include/Rmask1.hpp:142-151 *)
Definition pr_list (p : Z * list (Z * R)) : list tcell := TInt (fst p) :: TInt (Z.of_nat (length (snd p))) :: flat_map (fun e => [TInt (fst e); TFac (snd e)]) (snd p).
(* prepare(): the array arr -- include/Rmask1.hpp:125-165; current is never set, so the arrays are made afresh at every call *)
Definition pr_arr (ls : mlists) : list tcell := flat_map pr_list ls.
(* prepare(): the array ptr -- include/Rmask1.hpp:135-152 *)
Fixpoint pr_ptr (head : Z) (ls : mlists (R := R)) : list Z :=
  match ls with [] => [] | p :: ls' => head :: pr_ptr (head + (2 + 2 * Z.of_nat (length (snd p)))) ls' end.
(* (int)tbl[i] and tbl[i] -- cuda/TensorView_accumulators.cu:39-40, 49-50 *)
Definition t_int (T : list tcell) (i : Z) : res Z := do c <- zget T i; match c with TInt z => Ok z | TFac _ => UB end.
Definition t_fac (T : list tcell) (i : Z) : res R := do c <- zget T i; match c with TFac c => Ok c | TInt _ => UB end.
(* the row of r that block b changes, and the rows of x with their factors -- cuda/TensorView_accumulators.cu:38-40, 48-50 *)
Definition ac_row (T : list tcell) (P : list Z) (b : Z) : res (Z * list (Z * R)) :=
  do h <- zget P b; let offs := h + 2 in
  do n <- t_int T (offs - 1); do t <- t_int T (offs - 2);
  do es <- mapM (fun i => do j <- t_int T (offs + 2 * i); do c <- t_fac T (offs + 2 * i + 1); Ok (j, c)) (zrange n); Ok (t, es).
(* the cells of a row of n0 cells that thread t handles -- cuda/TensorView_accumulators.cu:36-37, 42-45, 52-55, 60-63 *)
Definition ac_cells (n0 t : Z) : list Z :=
  let lines := Z.quot n0 32 in map (fun j => j * 32 + t) (zrange lines) ++ (if t <? n0 - lines * 32 then [lines * 32 + t] else []).
(* accumulator_kernel -- cuda/TensorView_accumulators.cu:29-65 *)
Definition ac_thread (T : list tcell) (P : list Z) (r : addr) (rs : Z) (x : addr) (xs n0 : Z) (th : thread) : res (list (addr * list (R * addr))) :=
  do ' (t, es) <- ac_row T P (bx th);
  Ok (map (fun k => (shift r (t * rs + k), map (fun e => (snd e, shift x (fst e * xs + k))) es)) (ac_cells n0 (tx th))).
(* Ctensor2view_accumulator_cu(r,x,mask) -- cuda/TensorView_accumulators.cu:70-89; roundup, include/Cnine_base_helpers.hpp:12-14.  assert as an exception *)
Definition ac_plan (q : rmask) (r x : view) : res (list (addr * list (R * addr))) :=
  assrt (sd r 2 =? 1) (assrt (sd x 2 =? 1) (assrt (sd r 1 =? 2) (assrt (sd x 1 =? 2) (assrt (nd x 1 =? nd r 1)
    (assrt (Z.quot ((Z.quot (nd x 1 * 2 - 1) 32 + 1) * 32) 32 <=? 384)
      (let B := Z.of_nat (length (rm_lists q)) in
       if cu_ok (B, 1, 1) (32, 1, 1)
       then do l <- mapM (ac_thread (pr_arr (rm_lists q)) (pr_ptr 0 (rm_lists q)) (arr r) (sd r 0) (arr x) (sd x 0) (nd x 1)) (cu_threads (B, 1, 1) (32, 1, 1)); Ok (concat l)
       else Ok [])))))).
(* target+=c*src for all sources -- cuda/TensorView_accumulators.cu:42-63 *)
Definition ac_step (e : addr * list (R * addr)) (m : memR) : res memR :=
  do v <- loadA m (fst e); do s <- foldM (fun cp s => do u <- loadA m (snd cp); Ok (cadd s (cmul (fst cp) u))) (snd e) v; store m (fst (fst e)) (snd (fst e)) s.
(* the statements in the order l *)
Definition ac_exec (l : list (addr * list (R * addr))) (m : memR) : res memR := foldM ac_step l m.
End S.
