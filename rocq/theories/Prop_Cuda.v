(* Prop_Cuda.v -- C179: assigning, adding and incrementing tensors on a graphics card. *)
From Verif Require Import Base BaseFacts Model_Index Model_View Model_Tensor Model_Cuda Spec_Index Spec_View Spec_Tensor Spec_Cuda Proofs_Index Proofs_Tensor Proofs_Cuda.
Local Open Scope Z_scope.

(* For the shapes that fit, every order of the threads gives every element its value exactly once and touches nothing else.
   f is the statement of a thread: f_set (assign), f_add1 (add), or addition of a fixed number (no sources). *)
Theorem C179_fits {V} (f : V -> list V -> V) r xs m : cu_fits (vdims r) -> vwf r -> distinct_cells r -> readable m r ->
  Forall (fun x => vwf x /\ vdims x = vdims r /\ readable m x /\ no_clobber r x) xs ->
  exists plan, cu_plan r xs = Ok plan /\
    forall orders, any_order plan orders -> exists m', cu_exec f orders m = Ok m' /\ done f r xs m m'.
Proof. exact (launches_done f r xs m). Qed.
Print Assumptions C179_fits.

(* Refuted for the other shapes: the elements of cu_missed keep their values, whatever f is and in every order. *)
Theorem C179_missed_refuted {V} (f : V -> list V -> V) r xs m : vwf r -> distinct_cells r -> readable m r ->
  Forall (fun x => vwf x /\ vdims x = vdims r /\ readable m x) xs ->
  exists plan, cu_plan r xs = Ok plan /\
    forall orders, any_order plan orders -> exists m', cu_exec f orders m = Ok m' /\
      (forall ix, in_range ix (vdims r) -> cu_missed (vdims r) ix -> elem m' r ix = elem m r ix) /\ untouched m m' r.
Proof. exact (launches_missed f r xs m). Qed.
Print Assumptions C179_missed_refuted.

(* and every shape with positive sides that does not fit has such elements *)
Theorem C179_dichotomy dims : Forall (fun d => 0 < d <= 2147483647) dims -> ~ cu_fits dims ->
  exists ix, in_range ix dims /\ cu_missed dims ix.
Proof. exact (fits_or_missed dims). Qed.
Print Assumptions C179_dichotomy.
Theorem C179_exclusive dims ix : cu_fits dims -> in_range ix dims -> ~ cu_missed dims ix.
Proof.
  intros H R. destruct dims as [|a [|b [|c [|]]]]; try (now destruct H); rng; cbn [cu_missed cu_fits] in *.
  - pose proof (Z_div_mod_eq_full a 1024). lia.
  - pose proof (Z_div_mod_eq_full b 1024). lia.
  - pose proof (Z_div_mod_eq_full c 1024). destruct H as (Ha & Hb & Hc & [H|[H|(H & H' & Hw)]]); intros [X|[X|X]]; nia.
Qed.
Print Assumptions C179_exclusive.

(* Vectors longer than 1024 whose length is not a multiple of 1024: the first n mod 1024 elements get the statement twice, the last ones not at all *)
Theorem C179_twice_refuted {V} (f : V -> list V -> V) r xs m n : vdims r = [n] -> 1024 < n <= 2147483647 -> 0 < n mod 1024 ->
  vwf r -> distinct_cells r -> readable m r ->
  Forall (fun x => vwf x /\ vdims x = vdims r /\ readable m x /\ disjoint_views r x) xs ->
  exists plan, cu_plan r xs = Ok plan /\ forall orders, any_order plan orders -> exists m', cu_exec f orders m = Ok m' /\
    forall i, 0 <= i < n -> exists v us, elem m r [i] = Some v /\ Forall2 (fun x u => elem m x [i] = Some u) xs us /\
      elem m' r [i] = Some (if i <? n mod 1024 then f (f v us) us else if i <? 1024 * (n / 1024) then f v us else v).
Proof. exact (launches_twice f r xs m n). Qed.
Print Assumptions C179_twice_refuted.

(* other shapes among the operands are refused *)
Theorem C179_shapes r xs : Exists (fun x => vdims x <> vdims r) xs -> cu_plan r xs = Throw.
Proof.
  intro H. unfold cu_plan. replace (forallb (fun x => eqlb (vdims r) (vdims x)) xs) with false; [reflexivity|]. symmetry. induction H as [x xs H|x xs H IH]; cbn [forallb].
  - destruct (eqlb (vdims r) (vdims x)) eqn:E; [|reflexivity]. apply eqlb_eq in E. congruence.
  - rewrite IH. now destruct (eqlb (vdims r) (vdims x)).
Qed.
Print Assumptions C179_shapes.

(* callers: r.add(x) for tensors of the same contiguous layout is the plan above *)
Theorem C179_add r x : vdims x = vdims r -> vstr x = vstr r -> is_contiguous (vstr r) (vdims r) = Ok true -> asize (vdims r) <> 0 -> gpu_add_plan r x = cu_plan r [x].
Proof. intros D S C N. unfold gpu_add_plan. rewrite D, S, !eqlb_refl, C. cbn [bind andb assrt]. now replace (asize (vdims r) =? 0) with false by lia. Qed.
Print Assumptions C179_add.
(* ... and for all other layouts every element gets x's added, if the axes that are left after merging fit *)
Theorem C179_add_merged_partial {V} (f : V -> list V -> V) r x (m : mem V) rp xp : vwf r -> Forall (fun s => s < 2147483647) (vstr r) -> vwf x -> vdims x = vdims r -> prod (vdims r) <> 0 ->
  ~ (vstr x = vstr r /\ is_contiguous (vstr r) (vdims r) = Ok true) -> co_scrunch r x = Ok (rp, xp) -> cu_fits (vdims rp) ->
  distinct_cells r -> readable m r -> readable m x -> no_clobber r x ->
  exists plan, gpu_add_plan r x = Ok plan /\ forall orders, any_order plan orders -> exists m', cu_exec f orders m = Ok m' /\ done f r [x] m m'.
Proof. apply merged_done. Qed.
Print Assumptions C179_add_merged_partial.
Example C179_case_merged : co_scrunch (View 0 0 [3; 4; 5] [20; 5; 1]) (View 1 0 [3; 4; 5] [1; 15; 3]) = Ok (View 0 0 [3; 20] [20; 1], View 1 0 [3; 20] [1; 3]) /\ cu_fits [3; 20] /\
  ~ ([1; 15; 3] = [20; 5; 1] /\ is_contiguous [20; 5; 1] [3; 4; 5] = Ok true) /\ exists plan, gpu_add_plan (View 0 0 [3; 4; 5] [20; 5; 1]) (View 1 0 [3; 4; 5] [1; 15; 3]) = Ok plan /\ length (concat plan) = 60%nat.
Proof. split; [reflexivity|]. split; [cbn; lia|]. split; [intros [E _]; discriminate|]. eexists. split; vm_compute; reflexivity. Qed.
(* refuted for r.add(c), c a number: a vector of 1024 elements, or a matrix of 1024 elements stored row by row, is not changed *)
Theorem C179_number_refuted {V} (eq0 : V -> bool) (f : V -> list V -> V) b o s x m : eq0 x = false ->
  exists plan, gpu_inc_plan eq0 (View b o [1024] [s]) x = Ok plan /\ forall orders, any_order plan orders -> cu_exec f orders m = Ok m.
Proof. intro E. exists []. split; [now apply inc_plan_1024|]. intros orders O. inversion O; subst. reflexivity. Qed.
Print Assumptions C179_number_refuted.
Theorem C179_number_matrix_refuted {V} (eq0 : V -> bool) (f : V -> list V -> V) b o n k x m : eq0 x = false -> 1 < k < INT_MAX -> n * k = 1024 ->
  exists plan, gpu_inc_plan eq0 (View b o [n; k] [k; 1]) x = Ok plan /\ forall orders, any_order plan orders -> cu_exec f orders m = Ok m.
Proof. intros E H P. exists []. split; [now apply inc_plan_matrix|]. intros orders O. inversion O; subst. reflexivity. Qed.
Print Assumptions C179_number_matrix_refuted.

(* concrete cases *)
Definition cu_r := View 0 0 [2; 3] [3; 1].
Definition cu_x := View 1 5 [2; 3] [1; 2].
Definition cu_m : mem Z := fun b a => if (b =? 0) && (0 <=? a) && (a <? 4096) then Some (10 * a) else if (b =? 1) && (0 <=? a) && (a <? 4096) then Some a else None.
Example C179_case_fits : cu_fits [2; 3] /\ cu_fits [300; 7] /\ cu_fits [5; 2048] /\ cu_fits [2; 3; 4] /\ cu_fits [200; 3; 4] /\ cu_fits [4; 40; 50] /\ cu_fits [2; 2; 3072] /\ cu_fits [1023] /\ cu_fits [2048].
Proof. cbn. repeat split; try lia. Qed.
Lemma ok_snd (b a a' : Z) : Ok (b, a) = Ok (b, a') -> a = a'. Proof. congruence. Qed.
Lemma cu_r_addr i j : vaddr cu_r [i; j] = Ok (0, 0 + (3 * i + (1 * j + 0))). Proof. reflexivity. Qed.
Lemma cu_x_addr i j : vaddr cu_x [i; j] = Ok (1, 5 + (1 * i + (2 * j + 0))). Proof. reflexivity. Qed.
Example C179_case_hyps : vwf cu_r /\ distinct_cells cu_r /\ readable cu_m cu_r /\ vwf cu_x /\ readable cu_m cu_x /\ no_clobber cu_r cu_x.
Proof.
  split; [|split; [|split; [|split; [|split]]]].
  - split; [reflexivity|repeat constructor; lia].
  - intros ix jx H J E. cbn [vdims cu_r] in *. rng. rewrite !cu_r_addr in E. apply ok_snd in E. f_equal; [lia|f_equal; lia].
  - intros ix H. cbn [vdims cu_r] in *. rng. unfold elem. rewrite cu_r_addr. unfold cu_m. rewrite Z.eqb_refl. cbn [andb]. replace (0 <=? 0 + (3 * i + (1 * i0 + 0))) with true by lia. replace (0 + (3 * i + (1 * i0 + 0)) <? 4096) with true by lia. discriminate.
  - split; [reflexivity|repeat constructor; lia].
  - intros ix H. cbn [vdims cu_x] in *. rng. unfold elem. rewrite cu_x_addr. unfold cu_m. rewrite (Z.eqb_refl 1). cbn [andb]. replace (1 =? 0) with false by lia. replace (0 <=? 5 + (1 * i + (2 * i0 + 0))) with true by lia. replace (5 + (1 * i + (2 * i0 + 0)) <? 4096) with true by lia. discriminate.
  - intros ix jx H J E. cbn [vdims cu_r cu_x] in *. rng. rewrite cu_r_addr, cu_x_addr in E. discriminate.
Qed.
(* the six threads, last to first *)
Example C179_case_run : exists plan, cu_plan cu_r [cu_x] = Ok plan /\
  (do m <- cu_exec (@f_add1 ZRing) (map (@rev _) plan) cu_m; loads m (map (fun a => (0, a)) (zrange 6))) = Ok [5; 17; 29; 36; 48; 60] /\ any_order plan (map (@rev _) plan).
Proof. eexists. split; [vm_compute; reflexivity|]. split; [vm_compute; reflexivity|]. repeat constructor. apply Permutation_sym, Permutation_rev. Qed.
Example C179_case_missed : cu_missed [1024] [0] /\ cu_missed [1500] [1030] /\ cu_missed [3; 2000] [2; 1999] /\ cu_missed [1; 1; 100] [0; 0; 0] /\ cu_missed [2; 70000; 2] [1; 5; 1] /\ cu_missed [2; 2; 2; 2] [0; 0; 0; 0] /\ cu_missed [] [].
Proof. cbn [cu_missed]. repeat split; try lia. Qed.
(* adding 1 to 1030 zeros *)
Example C179_case_twice : exists plan, cu_plan (View 0 0 [1030] [1]) [] = Ok plan /\
  (do m <- cu_exec (fun v _ => v + 1) plan (fun b a => if (b =? 0) && (0 <=? a) && (a <? 1030) then Some 0 else None);
   loads m (map (fun a => (0, a)) [0; 5; 6; 1023; 1024; 1029])) = Ok [2; 2; 1; 1; 0; 0].
Proof. eexists. split; [vm_compute; reflexivity|]. vm_compute. reflexivity. Qed.
Example C179_case_number : gpu_inc_plan (Z.eqb 0) (View 0 0 [32; 32] [32; 1]) 7 = Ok [] /\ asize [32; 32] = 1024.
Proof. split; vm_compute; reflexivity. Qed.
Example C179_case_add : is_contiguous [3; 1] [2; 3] = Ok true /\ asize [2; 3] <> 0.
Proof. split; [vm_compute; reflexivity|discriminate]. Qed.
