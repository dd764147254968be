(* Spec_HView.v -- layouts and the effect of reductions and broadcasts along one axis, at any rank. *)
From Verif Require Import Base Model_Index Model_View Spec_Index Spec_View Spec_Tensor Spec_RView.
Local Open Scope Z_scope.

(* the axes d and d+1 follow each other in memory: one step along d is n_(d+1) steps along d+1 *)
Definition joined (v : view) (d : nat) : Prop := nth d (vstr v) 0 = nth (S d) (vdims v) 0 * nth (S d) (vstr v) 0.
(* all the axes before a follow each other, and so do all those after a *)
Definition joined_except (a : nat) (v : view) : Prop :=
  forall d, (S d < length (vdims v))%nat -> d <> a -> S d <> a -> joined v d.
(* row-major, without gaps *)
Definition regular (v : view) : Prop := vstr v = strides_of 1 (vdims v).

(* the index with entries d and d+1 replaced by their position in an n x q rectangle, and back *)
Definition fused (d : nat) (q : Z) (ix : list Z) : list Z := firstn d ix ++ (nth d ix 0 * q + nth (S d) ix 0) :: skipn (S (S d)) ix.
Definition unfused (d : nat) (q : Z) (ix : list Z) : list Z := firstn d ix ++ (nth d ix 0 / q) :: (nth d ix 0 mod q) :: skipn (S d) ix.
(* the index with i added to each entry *)
Definition shifted (i ix : list Z) : list Z := map (fun p => fst p + snd p) (combine i ix).

(* the first slice of v along axis a becomes g of the list of the slices; nothing outside v changes *)
Definition reduced {R : cring} (g : list R -> R) (a : nat) (v : view) (m m' : mem (car R)) : Prop :=
  (forall jx, in_range jx (del a (vdims v)) ->
     elem m' v (ins a 0 jx) = Some (g (map (fun i => elem0 m v (ins a i jx)) (zrange (nth a (vdims v) 0))))) /\
  untouched m m' v.
