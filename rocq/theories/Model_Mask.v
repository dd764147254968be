(* Model_Mask.v -- sparse masks (Rmask1), aggregation of rows of complex views by a mask (Aggregator), and the element
   accessors TensorAccessor and FixedTensorAccessor (CPU).  int arithmetic unbounded; float is a commutative ring. *)
From Verif Require Import Base Model_Index Model_View Model_Tensor Model_RView Model_CView.
Local Open Scope Z_scope.

Section Mask.
Context {R : cring}.
Notation memR := (mem (car R)).

(* std::map<int,vector<pair<int,float>>> as a list in the order of its keys -- include/Rmask1.hpp:38 *)
Definition mlists : Type := list (Z * list (Z * R)).
(* the members of Rmask1 -- include/Rmask1.hpp:35-45; not modelled: the arrays on the GPU (arrg, ptrg, current, prepare) *)
Inductive rmask : Type := RMask { rm_N : Z; rm_M : Z; rm_lists : mlists; rm_inv : option rmask; rm_cur : bool }.
(* lists[i].push_back(e) -- include/Rmask1.hpp:114 *)
Fixpoint lpush (i : Z) (e : Z * R) (l : mlists) : mlists :=
  match l with
  | [] => [(i, [e])]
  | (k, es) :: l' => if i <? k then (i, [e]) :: l else if i =? k then (k, es ++ [e]) :: l' else (k, es) :: lpush i e l'
  end.
(* Rmask1() -- include/Rmask1.hpp:57 *)
Definition rm_new : rmask := RMask 0 0 [] None false.
(* push(i,j,v) -- include/Rmask1.hpp:109-115 *)
Definition rm_push (i j : Z) (v : R) (q : rmask) : rmask :=
  RMask (if rm_N q <=? i then i + 1 else rm_N q) (if rm_M q <=? j then j + 1 else rm_M q) (lpush i (j, v) (rm_lists q)) (rm_inv q) false.
(* make_inverse() -- include/Rmask1.hpp:171-180 *)
Definition rm_make_inverse (q : rmask) : rmask :=
  fold_left (fun a p => fold_left (fun a e => rm_push (fst e) (fst p) (snd e) a) (snd p) a) (rm_lists q) rm_new.
(* inv() -- include/Rmask1.hpp:117-120: the inverse, and the mask with its two mutable members updated *)
Definition rm_inverse (q : rmask) : rmask * rmask :=
  match rm_inv q, rm_cur q with
  | Some p, true => (p, q)
  | _, _ => let p := rm_make_inverse q in (p, RMask (rm_N q) (rm_M q) (rm_lists q) (Some p) true)
  end.
(* the copy constructor -- include/Rmask1.hpp:68-70: copies the lists only *)
Definition rm_copy (q : rmask) : rmask := RMask 0 0 (rm_lists q) None false.
(* the move constructor -- include/Rmask1.hpp:72-78: the new mask; the lists of the old one are taken to be left empty *)
Definition rm_move (q : rmask) : rmask * rmask := (RMask 0 0 (rm_lists q) None false, RMask (rm_N q) (rm_M q) [] (rm_inv q) (rm_cur q)).
(* matrix(M) -- include/Rmask1.hpp:95-103; isz is the test M(i,j)==0 *)
Definition rm_matrix (isz : R -> bool) (M : view) (m : memR) : res rmask :=
  forZ (nd M 0) (fun i => forZ (nd M 1) (fun j q => do v <- get_at M [i; j] m; Ok (if isz v then q else rm_push i j v q))) rm_new.

(* Aggregator(r,x,mask) -- tensor_views/Aggregator.hpp:40-51, and Ctensor2view_accumulator,
   tensor_views/TensorView_accumulator.hpp:31-40: slice0 checks no range *)
Definition agg2 (q : rmask) (r x : view) (m : memR) : res memR :=
  foldM (fun p m => foldM (fun e m => cv1_addc (cv2_slice0 r (fst p)) (cv2_slice0 x (fst e)) (of_real (snd e)) m) (snd p) m) (rm_lists q) m.
(* three and four axes -- tensor_views/Aggregator.hpp:66-73 *)
Definition agg3 (q : rmask) (r x : view) (m : memR) : res memR := agg2 q (cv3_fuse12 r) (cv3_fuse12 x) m.
Definition agg4 (q : rmask) (r x : view) (m : memR) : res memR := agg3 q (cv4_fuse23 r) (cv4_fuse23 x) m.
(* fuse0X() -- tensor_views/CtensorView.hpp:222-226, tensor_views/CtensorD_view.hpp:189-193: division by 0 is UB *)
Definition cfuse0X (v : view) : res view :=
  let ds := removelast (vdims v) in let ss := removelast (vstr v) in
  match ds with
  | [] => Ok (View (vblk v) (voff v) [1; 1; 2] [0; 0; coffs v])
  | [d] => do s <- zget ss 0; Ok (View (vblk v) (voff v) [d; 1; 2] [s; 0; coffs v])
  | d :: _ => do s <- zget ss 0; let l := last ss 0 in
      if l =? 0 then UB else Ok (View (vblk v) (voff v) [d; Z.quot s l; 2] [s; l; coffs v])
  end.
(* any number of axes -- tensor_views/Aggregator.hpp:75-80 *)
Definition aggN (q : rmask) (r x : view) (m : memR) : res memR :=
  do r' <- cfuse0X r; do x' <- cfuse0X x; agg2 q r' x' m.
End Mask.

(* ---- accessors *)
(* arr and s0,s1,.. -- tensors/TensorAccessor.hpp:66-67, 90-92, 116-119, 144-148, 174-179, 206-212 *)
Record accessor := Acc { ablk : Z; aoff : Z; astr : list Z }.
(* TensorAccessor<TYPE,k>(x) -- tensors/TensorAccessor.hpp:33-37 (k=0), 69-73, 94-99, 121-127, 150-157, 181-189, 214-223;
   the six constructors are one function *)
Definition acc_of (k : nat) (x : view) : res accessor :=
  match k with
  | O => assrt ((length (vdims x) =? 0)%nat || (length (vdims x) =? 1)%nat)
           (if (length (vdims x) =? 1)%nat then do d <- zget (vdims x) 0; assrt (d =? 1) (Ok (Acc (vblk x) (voff x) []))
            else Ok (Acc (vblk x) (voff x) []))
  | _ => assrt (length (vdims x) =? k)%nat (do ss <- mapM (zget (vstr x)) (zrange (Z.of_nat k)); Ok (Acc (vblk x) (voff x) ss))
  end.
(* FixedTensorAccessork<TYPE,s0,..>(x) -- tensors/FixedTensorAccessor.hpp:48-52, 101-104, 149-152, 202-205, 241-244, 280-283,
   319-322: the strides are parameters of the type and are not compared with those of x *)
Definition facc_of (k : nat) (ss : list Z) (x : view) : res accessor :=
  match k with
  | O => assrt ((length (vdims x) =? 0)%nat || (length (vdims x) =? 1)%nat) (Ok (Acc (vblk x) (voff x) []))
  | _ => assrt (length (vdims x) =? k)%nat (Ok (Acc (vblk x) (voff x) ss))
  end.
(* operator()(i0,..) -- tensors/TensorAccessor.hpp:75-77, 101-103, 129-131, 159-161, 191-193, 225-227; the same in
   tensors/FixedTensorAccessor.hpp:106-108, 154-156, 207-209, 246-248, 285-287, 324-326 *)
Definition acc_get {V} (a : accessor) (ix : list Z) (m : mem V) : res V := load m (ablk a) (aoff a + dot (astr a) ix).
(* set(i0,..,v) -- tensors/TensorAccessor.hpp:79-81, 105-107, 133-135, 163-165, 195-197, 229-231; the same in
   tensors/FixedTensorAccessor.hpp:110-112, 158-160, 211-213, 250-252, 289-291, 328-330 *)
Definition acc_set {V} (a : accessor) (ix : list Z) (v : V) (m : mem V) : res (mem V) := store m (ablk a) (aoff a + dot (astr a) ix) v.
