(* Prop_IntTensor.v -- C158-C164: integer tensors with any number of axes. *)
From Coq Require Import ZArith List Bool Lia.
Import ListNotations.
From Verif Require Import Base BaseFacts Map Model_Index Model_Tensor Model_Containers Proofs_Containers Model_IntTensor Spec_Index Proofs_Index Spec_IntTensor Proofs_IntTensor Proofs_IntTensor2.
Local Open Scope Z_scope.

(* ---- C158: construction and conversion ---- *)
Theorem C158_zeros dims : dims <> [] -> nonneg dims -> exists t, nt_zeros dims = Ok t /\ has t dims (fun _ => 0) /\ trim t.
Proof. exact (filled_ok (fun _ => 0) dims). Qed.
Theorem C158_ones dims : dims <> [] -> nonneg dims -> exists t, nt_ones dims = Ok t /\ has t dims (fun _ => 1) /\ trim t.
Proof. exact (filled_ok (fun _ => 1) dims). Qed.
Theorem C158_sequential dims : dims <> [] -> nonneg dims -> exists t, nt_sequential dims = Ok t /\ has t dims (fun ix => flat ix dims) /\ trim t.
Proof. exact (filled_ok (fun i => i) dims). Qed.
(* a raw tensor has its shape, and no element may be read before it is set *)
Theorem C158_raw dims ix : dims <> [] -> nonneg dims -> in_range ix dims -> exists t, nt_new dims = Ok t /\ sized t dims /\ nt_get t ix = UB.
Proof. apply new_unset. Qed.
Theorem C158_no_axes : nt_new [] = Throw /\ nt_noalloc [] = Throw /\ nt_zeros [] = Throw /\ nt_ones [] = Throw /\ nt_sequential [] = Throw.
Proof. now repeat split. Qed.
Theorem C158_of_gtensor g f : gtd g <> [] -> nonneg (gtd g) -> (forall ix, in_range ix (gtd g) -> bget (gta g) (flat ix (gtd g)) = Ok (f ix)) ->
  exists t, nt_of_gtensor g = Ok t /\ has t (gtd g) f /\ trim t.
Proof. apply of_gtensor_ok. Qed.
Theorem C158_gtensor t dims f : has t dims f ->
  exists g t', nt_gtensor t = Ok g /\ gtd g = dims /\ blen (gta g) = prod dims /\ (forall ix, in_range ix dims -> bget (gta g) (flat ix dims) = Ok (f ix)) /\
    nt_of_gtensor g = Ok t' /\ has t' dims f.
Proof.
  intro H. destruct (gtensor_ok t dims f H) as (g & E & D & L & G). exists g. pose proof (proj1 H) as (_ & N & P & _).
  destruct (of_gtensor_ok g f) as (t' & E' & H' & _); [now rewrite D|now rewrite D|now rewrite D|]. exists t'. rewrite D in H'. auto 10.
Qed.
(* a tensor made from a vector of n numbers has n axes of side 0, not one axis of side n; with range checking nothing is made *)
Theorem C158_of_vector_refuted v : v <> [] -> nt_of_vector true v = Throw /\
  exists t, nt_of_vector false v = Ok t /\ nd t = repeat 0 (length v) /\ nd t <> [Z.of_nat (length v)] /\ forall ix, ~ in_range ix (nd t).
Proof.
  intro N. split; [now apply of_vector_checked|]. destruct (of_vector_unchecked v N) as (t & E & D & I). exists t. split; [exact E|]. split; [exact D|]. split; [|exact I].
  rewrite D. destruct v as [|x v]; [contradiction|]. cbn [length repeat]. intro X. injection X as X _. lia.
Qed.
Example C158_case : (do t <- nt_sequential [2; 3; 2]; nt_get t [1; 2; 0]) = Ok 10 /\ (do t <- nt_of_vector false [7; 8; 9]; Ok (nd t)) = Ok [0; 0; 0] /\
  (do t <- nt_sequential [2; 2]; do g <- nt_gtensor t; do t <- nt_of_gtensor g; nt_get t [1; 0]) = Ok 2.
Proof. vm_compute. auto. Qed.
Print Assumptions C158_zeros.
Print Assumptions C158_ones.
Print Assumptions C158_sequential.
Print Assumptions C158_raw.
Print Assumptions C158_no_axes.
Print Assumptions C158_of_gtensor.
Print Assumptions C158_gtensor.
Print Assumptions C158_of_vector_refuted.

(* ---- C159: element access ---- *)
(* setting one element, also of a tensor whose other elements have no value yet *)
Theorem C159_set t dims ix x : sized t dims -> in_range ix dims -> exists t', nt_set ix x t = Ok t' /\ sized t' dims /\ nmem t' = nmem t /\
  nt_get t' ix = Ok x /\ forall jx, in_range jx dims -> jx <> ix -> nt_get t' jx = nt_get t jx.
Proof. apply set_sized. Qed.
(* one to four ints name the same element as an index, whether ranges are checked or not *)
Theorem C159_ints rc t dims f ix x : has t dims f -> in_range ix dims -> length ix <> 5%nat ->
  nt_geti rc t ix = Ok (f ix) /\ exists t', nt_seti rc ix x t = Ok t' /\ has t' dims (upd f ix x).
Proof.
  intros H I L. split; [apply (geti_ok rc t dims); auto|]. rewrite (seti_ok rc t dims) by (auto; exact (proj1 H)). destruct (set_has t dims f ix x H I) as (t' & E & H' & _). eauto.
Qed.
(* with range checking exactly the indices in range are accepted *)
Theorem C159_checked t dims ix x : nd t = dims -> ~ in_range ix dims -> length ix <> 5%nat -> nt_geti true t ix = Throw /\ nt_seti true ix x t = Throw.
Proof. apply geti_out. Qed.
(* five ints: right without range checking, always refused with it *)
Theorem C159_five_unchecked t dims f ix : has t dims f -> in_range ix dims -> nt_geti false t ix = Ok (f ix).
Proof. intros. apply (geti_ok false t dims); auto. Qed.
Theorem C159_five_refuted t ix x : length (nd t) = 5%nat -> in_range ix (nd t) -> nt_geti true t ix = Throw /\ nt_seti true ix x t = Throw.
Proof. intros E I. apply five_refused; [exact E|]. rewrite (in_range_length _ _ I). exact E. Qed.
(* an index with too few entries is not refused: the missing ones count as 0 *)
Theorem C159_short_index_refuted t dims f ix n : has t dims f -> (length ix + n)%nat = length dims -> in_range (ix ++ repeat 0 n) dims -> nt_get t ix = Ok (f (ix ++ repeat 0 n)).
Proof. apply short_index. Qed.
Example C159_case : (do t <- nt_sequential [2; 3]; do t <- nt_seti true [1; 1] 9 t; do a <- nt_geti true t [1; 1]; do b <- nt_get t [1]; Ok (a, b)) = Ok (9, 3) /\
  (do t <- nt_zeros [1; 1; 1; 1; 2]; nt_geti true t [0; 0; 0; 0; 1]) = Throw /\ (do t <- nt_zeros [1; 1; 1; 1; 2]; nt_geti false t [0; 0; 0; 0; 1]) = Ok 0.
Proof. vm_compute. auto. Qed.
Print Assumptions C159_set.
Print Assumptions C159_ints.
Print Assumptions C159_checked.
Print Assumptions C159_five_unchecked.
Print Assumptions C159_five_refuted.
Print Assumptions C159_short_index_refuted.

(* ---- C160: copies and assignments ---- *)
Theorem C160_copy t dims f : has t dims f -> exists t', nt_copy t = Ok t' /\ has t' dims f /\ trim t'.
Proof. apply copy_ok. Qed.
Theorem C160_assign o t dims f : has t dims f -> exists t', nt_assign o t = Ok t' /\ has t' dims f /\ trim t'.
Proof. apply copy_ok. Qed.
Theorem C160_to_host t dims f : has t dims f -> 0 < prod dims -> exists t', nt_copy_dev t = Ok t' /\ has t' dims f /\ trim t'.
Proof. intros H P. rewrite (copy_dev_same t dims) by (auto; exact (proj1 H)). now apply copy_ok. Qed.
Theorem C160_move t o dims f : has t dims f -> has (fst (nt_move t)) dims f /\ has (fst (nt_move_assign o t)) dims f /\
  forall ix, in_range ix dims -> nt_get (snd (nt_move t)) ix = UB /\ nt_get (snd (nt_move_assign o t)) ix = UB.
Proof.
  intro H. split; [exact H|]. split; [exact H|]. intros ix I. pose proof (proj1 H) as (_ & _ & _ & E & _). split; now apply (gone_get _ _ _ dims).
Qed.
Theorem C160_set_from rc x t dims f : sized t dims -> has x dims f -> exists t', nt_set_from rc x t = Ok t' /\ has t' dims f /\ nmem t' = nmem t.
Proof. apply set_from_ok. Qed.
Theorem C160_set_from_checked x t : nd x <> nd t -> nt_set_from true x t = Throw.
Proof. apply set_from_refused. Qed.
Theorem C160_set_zero t dims : sized t dims -> exists t', nt_set_zero t = Ok t' /\ has t' dims (fun _ => 0) /\ nmem t' = nmem t.
Proof. apply set_zero_ok. Qed.
(* without range checking a smaller tensor is read past its end *)
Theorem C160_set_from_refuted x t dims : sized t dims -> blen (narr x) < prod dims -> nt_set_from false x t = UB.
Proof. apply set_from_short. Qed.
(* t=t and t=std::move(t) lose every element *)
Theorem C160_self_refuted t dims ix : sized t dims -> in_range ix dims ->
  (exists t', nt_assign_self t = Ok t' /\ nd t' = dims /\ nt_get t' ix = UB) /\ nt_get (nt_move_self t) ix = UB.
Proof. intros S I. split; [now apply self_assign_lost|]. destruct S as (_ & _ & _ & E & _). now apply (gone_get _ _ _ dims). Qed.
(* a copy on the host of a tensor without elements is not equal to the copy made without naming a device *)
Theorem C160_empty_copy_refuted t dims : sized t dims -> prod dims = 0 -> 1 <= blen (narr t) -> exists t1 t2, nt_copy_dev t = Ok t1 /\ nt_copy t = Ok t2 /\ nt_eq t1 t2 = Ok false.
Proof. apply empty_dev_copy. Qed.
Example C160_case : (do t <- nt_sequential [2; 2]; do c <- nt_copy t; do t <- nt_set_zero t; do a <- nt_get t [1; 1]; do b <- nt_get c [1; 1]; Ok (a, b)) = Ok (0, 3) /\
  (do t <- nt_sequential [2; 2]; do t <- nt_assign_self t; nt_get t [1; 1]) = UB /\ (do t <- nt_zeros [0; 2]; do c <- nt_copy_dev t; nt_eq t c) = Ok false.
Proof. vm_compute. auto. Qed.
Print Assumptions C160_copy.
Print Assumptions C160_assign.
Print Assumptions C160_to_host.
Print Assumptions C160_move.
Print Assumptions C160_set_from.
Print Assumptions C160_set_from_checked.
Print Assumptions C160_set_zero.
Print Assumptions C160_set_from_refuted.
Print Assumptions C160_self_refuted.
Print Assumptions C160_empty_copy_refuted.

(* ---- C161: growing along the first axis ---- *)
(* any number of slices put after the n rows of t *)
Theorem C161_pushes ds xs gs t n f : 0 < prod ds -> Forall2 (fun x g => has x ds g) xs gs -> has t (n :: ds) f ->
  exists t', foldM nt_push_slice xs t = Ok t' /\ has t' (n + Z.of_nat (length xs) :: ds) (stacked ((n, f) :: map one_row gs)).
Proof. intros P F H. now apply (pushes_ok ds xs gs P F t n f). Qed.
Theorem C161_push_refused t x n ds : nd t = n :: ds -> nd x <> ds -> nt_push_slice x t = Throw.
Proof. apply push_refused. Qed.
Theorem C161_reserve t n ds f k : has t (n :: ds) f -> 0 < prod ds -> exists t', nt_reserve k t = Ok t' /\ has t' (n :: ds) f /\ k * prod ds <= nmem t' /\ nmem t <= nmem t'.
Proof. apply reserve_ok. Qed.
(* the rows that are added have no values yet *)
Theorem C161_resize t n ds f k : has t (n :: ds) f -> 0 < prod ds ->
  (n <= k -> exists t', nt_resize k t = Ok t' /\ sized t' (k :: ds) /\ forall ix, in_range ix (n :: ds) -> nt_get t' ix = Ok (f ix)) /\ (k < n -> nt_resize k t = Throw).
Proof. intros H P. split; [now apply resize_ok|]. intro Hk. apply (resize_refused t n ds); [|assumption]. now destruct (proj1 H). Qed.
(* slices without elements cannot be put in or made room for: the capacity is a division by zero *)
Theorem C161_empty_slices_refuted t x n ds f g k : has t (n :: ds) f -> has x ds g -> prod ds = 0 -> nt_push_slice x t = UB /\ nt_reserve k t = UB /\ (n <= k -> nt_resize k t = UB).
Proof.
  intros H X P. split; [now apply (push_flat t x n ds f g)|]. pose proof (capacity_flat _ _ _ (proj1 H) P) as C. unfold nt_reserve, nt_resize. rewrite C. split; [reflexivity|]. intro Hk.
  destruct (sized_cons _ _ _ (proj1 H)) as (_ & -> & _). cbn [bind]. now replace (n <=? k) with true by lia.
Qed.
Example C161_case : (do t <- nt_noalloc [0; 2; 2]; do a <- nt_sequential [2; 2]; do b <- nt_ones [2; 2]; do t <- foldM nt_push_slice [a; b; a] t; do u <- nt_get t [2; 1; 0]; do v <- nt_get t [1; 1; 1]; Ok (nd t, nmem t, u, v)) = Ok ([3; 2; 2], 24, 2, 1) /\
  (do t <- nt_zeros [1; 0]; do x <- nt_zeros [0]; nt_push_slice x t) = UB.
Proof. vm_compute. auto. Qed.
Print Assumptions C161_pushes.
Print Assumptions C161_push_refused.
Print Assumptions C161_reserve.
Print Assumptions C161_resize.
Print Assumptions C161_empty_slices_refuted.

(* ---- C162: concatenation ---- *)
Theorem C162_cat ds ps l : ps <> [] -> Forall2 (fun p q => has p (fst q :: ds) (snd q)) ps l -> exists t, nt_cat ps = Ok t /\ has t (heights l :: ds) (stacked l) /\ trim t.
Proof. apply ntcat_ok. Qed.
Theorem C162_cat_none : nt_cat [] = Throw.
Proof. reflexivity. Qed.
(* the other axes are not compared: larger slices are written past the end, smaller ones leave elements without a value *)
Theorem C162_overrun_refuted p q n m ds es f g : has p (n :: ds) f -> has q (m :: es) g -> 0 < m -> prod ds < prod es -> 0 < (n + m) * prod ds -> nt_cat [p; q] = UB.
Proof. apply cat_overrun. Qed.
Theorem C162_holes_refuted p q n m ds es f g : has p (n :: ds) f -> has q (m :: es) g -> 0 < m -> prod es < prod ds -> positive ds ->
  exists t ix, nt_cat [p; q] = Ok t /\ nd t = n + m :: ds /\ in_range ix (n + m :: ds) /\ nt_get t ix = UB.
Proof. apply cat_holes. Qed.
Example C162_case : (do a <- nt_sequential [2; 2]; do b <- nt_ones [1; 2]; do t <- nt_cat [a; b; a]; do u <- nt_get t [4; 0]; do v <- nt_get t [2; 1]; Ok (nd t, u, v)) = Ok ([5; 2], 2, 1) /\
  (do a <- nt_sequential [2; 2]; do b <- nt_ones [1; 3]; nt_cat [a; b]) = UB.
Proof. vm_compute. auto. Qed.
Print Assumptions C162_cat.
Print Assumptions C162_cat_none.
Print Assumptions C162_overrun_refuted.
Print Assumptions C162_holes_refuted.

(* ---- C163: comparison ---- *)
Theorem C163_equal x y dx dy f g : has x dx f -> has y dy g -> trim x -> trim y -> exists b, nt_eq x y = Ok b /\ (b = true <-> dx = dy /\ forall ix, in_range ix dx -> f ix = g ix).
Proof. apply eq_ok. Qed.
(* after a slice was put in, the tensor differs from its own copy, and comparing it with itself reads cells without a value *)
Theorem C163_spare_room_refuted t x n ds f g : has t (n :: ds) f -> trim t -> has x ds g -> 0 < prod ds ->
  exists t1 t2, nt_push_slice x t = Ok t1 /\ nt_copy t1 = Ok t2 /\ nt_eq t1 t2 = Ok false /\ nt_eq t1 t1 = UB.
Proof. apply pushed_copy. Qed.
Example C163_case : (do a <- nt_sequential [2; 2]; do b <- nt_copy a; do c <- nt_set [0; 0] 5 b; do u <- nt_eq a b; do v <- nt_eq a c; Ok (u, v)) = Ok (true, false) /\
  (do a <- nt_sequential [2; 2]; do x <- nt_ones [2]; do a <- nt_push_slice x a; do b <- nt_copy a; nt_eq a b) = Ok false.
Proof. vm_compute. auto. Qed.
Print Assumptions C163_equal.
Print Assumptions C163_spare_room_refuted.

(* ---- C164: rows of a matrix ---- *)
Theorem C164_row rc t n m f i : has t [n; m] f -> 0 <= i < n -> nt_row rc t i = Ok (map (fun j => f [i; j]) (zrange m)).
Proof.
  intros H Hi. unfold nt_row. pose proof (proj1 H) as (_ & _ & P & _). inversion P as [|? ? _ P']; subst. inversion P'; subst. rewrite (row_from_ok rc t n m f i 0 H Hi) by lia. f_equal.
  rewrite Z.sub_0_r. apply map_ext. intro j. now rewrite Z.add_0_r.
Qed.
Theorem C164_row_from rc t n m f i beg : has t [n; m] f -> 0 <= i < n ->
  (0 <= beg <= m -> nt_row_from rc t i beg = Ok (map (fun j => f [i; j + beg]) (zrange (m - beg)))) /\ (m < beg -> nt_row_from rc t i beg = Throw).
Proof. intros H Hi. split; intro Hb; [now apply (row_from_ok rc t n m)|now apply (row_from_long rc t n m f)]. Qed.
Theorem C164_row_checked t n m i beg : nd t = [n; m] -> ~ (0 <= i < n) -> nt_row_from true t i beg = Throw.
Proof. apply row_outside. Qed.
(* a list no longer than the row replaces its first entries and nothing else *)
Theorem C164_set_row rc t n m f i l : has t [n; m] f -> 0 <= i < n -> Z.of_nat (length l) <= m -> exists t', nt_set_row rc i l t = Ok t' /\ has t' [n; m] (row_put f i 0 l) /\ nmem t' = nmem t.
Proof. apply set_row_ok. Qed.
Theorem C164_set_row_matrix rc t i l : length (nd t) <> 2%nat -> nt_set_row rc i l t = Throw.
Proof. apply set_row_refused. Qed.
(* one entry too many: refused with range checking, written into the next row without *)
Theorem C164_set_row_spills_refuted t n m f i l x : has t [n; m] f -> 0 <= i -> i + 1 < n -> Z.of_nat (length l) = m -> 0 < m ->
  nt_set_row true i (l ++ [x]) t = Throw /\ exists t', nt_set_row false i (l ++ [x]) t = Ok t' /\ has t' [n; m] (upd (row_put f i 0 l) [i + 1; 0] x).
Proof. apply set_row_spills. Qed.
Example C164_case : (do t <- nt_sequential [3; 2]; do t <- nt_set_row true 1 [8; 9] t; do a <- nt_row true t 1; do b <- nt_row_from true t 2 1; Ok (a, b)) = Ok ([8; 9], [5]) /\
  (do t <- nt_sequential [3; 2]; do t <- nt_set_row false 0 [7; 8; 9] t; nt_row false t 1) = Ok [9; 3].
Proof. vm_compute. auto. Qed.
Print Assumptions C164_row.
Print Assumptions C164_row_from.
Print Assumptions C164_row_checked.
Print Assumptions C164_set_row.
Print Assumptions C164_set_row_matrix.
Print Assumptions C164_set_row_spills_refuted.
