(* Prop_EinsumFn.v -- C118, C119: Einstein sums of two real or complex views. *)
From Coq Require Import String.
From Verif Require Import Base BaseFacts Model_Index Model_View Model_Tensor Model_Einsum Model_RView Model_CView Model_EinsumFn Spec_Index Spec_View Spec_Tensor Spec_Einsum
  Proofs_Index Proofs_View Proofs_Tensor Accum Proofs_Einsum Proofs_Einsum2 Proofs_Einsum3 Proofs_Einsum4 Proofs_Einsum5 Spec_Einsum2 Spec_CView Spec_EinsumFn
  Proofs_EinsumFn Proofs_EinsumFn2 Proofs_EinsumFn3 Proofs_EinsumFn4.
Local Open Scope Z_scope.

Definition st (s : string) : list ascii := list_ascii_of_string s.
Definition zm (l : list Z) : mem Z := fun b a => if b =? 0 then (if a <? 0 then None else nth_error l (Z.to_nat a)) else None.
Lemma readable_by {V} (m : mem V) v : forallb (fun ix => match elem m v ix with Some _ => true | None => false end) (all_indices (vdims v)) = true -> readable m v.
Proof. intros H ix Hi E. rewrite forallb_forall in H. specialize (H ix). rewrite E in H. discriminate H. now apply in_all_indices. Qed.
Lemma nodup_by v : NoDup (map (vaddr v) (all_indices (vdims v))) -> distinct_cells v.
Proof.
  intros H ix jx Hi Hj E. apply in_all_indices in Hi, Hj. clear - H Hi Hj E. induction (all_indices (vdims v)) as [|a l IH]; [destruct Hi|]. cbn in H. inversion H; subst.
  destruct Hi as [->|Hi], Hj as [->|Hj]; auto; exfalso; apply H2; [rewrite E|rewrite <- E]; now apply in_map.
Qed.
Lemma disjoint_by v w : forallb (fun ix => forallb (fun jx => negb (match vaddr v ix, vaddr w jx with Ok (a, b), Ok (c, d) => (a =? c) && (b =? d) | _, _ => true end)) (all_indices (vdims w))) (all_indices (vdims v)) = true -> disjoint_views v w.
Proof.
  intros H ix jx Hi Hj E. rewrite forallb_forall in H. apply in_all_indices in Hi, Hj. specialize (H ix Hi). rewrite forallb_forall in H. specialize (H jx Hj). rewrite E in H.
  destruct (vaddr w jx) as [[a b]| |]; try discriminate H. now rewrite !Z.eqb_refl in H.
Qed.
Ltac nodup := repeat (constructor; [let K := fresh in intro K; cbn in K; repeat (destruct K as [K|K]; [discriminate K|]); destruct K|]); constructor.
Ltac words := repeat constructor; discriminate.

(* ---- C118 *)
(* every letter of y also occurs in x or in r; at the axes of the contracted letters r has the sides and strides of x and y *)
Theorem C118_add (R : cring) xs ys rs D (r x y : view) (m : mem (car R)) :
  worded xs -> worded ys -> worded rs -> lettered r rs D -> lettered x xs D -> lettered y ys D ->
  (forall c, In c ys -> In c xs \/ In c rs) ->
  (List.length (carried xs ys rs) <= 3)%nat -> (List.length (contracted xs ys rs) <= 3)%nat -> (List.length (spread xs ys rs) <= 3)%nat ->
  (forall c, In c (contracted xs ys rs) -> alike r x xs c /\ alike r y ys c) ->
  readable m r -> distinct_cells r -> readable m x -> readable m y -> disjoint_views r x -> disjoint_views r y ->
  exists F m', rfn_of (str2 xs ys rs) = Ok F /\ rfn_call F r x y m = Ok m' /\ adds m m' r rs D (esum m x y xs ys rs D).
Proof. intros. now apply rfn_call_ok. Qed.
Print Assumptions C118_add.
(* without contracted letters any strides and offsets will do *)
Corollary C118_products (R : cring) xs ys rs D (r x y : view) (m : mem (car R)) :
  worded xs -> worded ys -> worded rs -> lettered r rs D -> lettered x xs D -> lettered y ys D ->
  (forall c, In c (xs ++ ys) -> In c rs) -> (List.length (carried xs ys rs) <= 3)%nat -> (List.length (spread xs ys rs) <= 3)%nat ->
  readable m r -> distinct_cells r -> readable m x -> readable m y -> disjoint_views r x -> disjoint_views r y ->
  exists F m', rfn_of (str2 xs ys rs) = Ok F /\ rfn_call F r x y m = Ok m' /\
    adds m m' r rs D (fun e => cmul (elem0 m x (map e xs)) (elem0 m y (map e ys))).
Proof.
  intros Wx Wy Wr Lr Lx Ly Cov L1 L3 Rr Dr Rx Ry Dx Dy.
  assert (E : contracted xs ys rs = []).
  { unfold contracted. assert (K : forall c, In c (letters (xs ++ ys)) -> notin rs c = false) by (intros c Hc; apply (proj1 (in_letters _ _)), Cov, isin_In in Hc; unfold notin; now rewrite Hc).
    revert K. induction (letters (xs ++ ys)) as [|a l IH]; intro K; [reflexivity|]. cbn [filter]. rewrite (K a) by now left. apply IH. intros. apply K. now right. }
  destruct (C118_add R xs ys rs D r x y m) as (F & m' & E1 & E2 & A1 & A2 & A3); try assumption.
  - intros c Hc. right. apply Cov, in_app_iff. now right.
  - rewrite E. cbn. lia.
  - rewrite E. intros c [].
  - exists F, m'. split; [exact E1|]. split; [exact E2|]. split; [|split; assumption]. intros e He. rewrite A1 by assumption. f_equal. f_equal. unfold esum. rewrite E. cbn [map all_indices over]. rewrite rsum_cons, rsum_nil.
    pose (T := cth R). rewrite (Ring_theory.Radd_comm T). apply (Ring_theory.Radd_0_l T).
Qed.
Print Assumptions C118_products.
(* three square matrices with the same strides: "ij,jk->ik" *)
Example C118_case : let x := View 0 0 [2; 2] [2; 1] in let y := View 0 4 [2; 2] [2; 1] in let r := View 0 8 [2; 2] [2; 1] in
  let m := zm [1; 2; 3; 4; 5; 6; 7; 8; 0; 0; 0; 100] in let xs := st "ij" in let ys := st "jk" in let rs := st "ik" in
  worded xs /\ worded ys /\ worded rs /\ lettered r rs (fun _ => 2) /\ lettered x xs (fun _ => 2) /\ lettered y ys (fun _ => 2) /\ (forall c, In c ys -> In c xs \/ In c rs) /\
  contracted xs ys rs = st "j" /\ (forall c, In c (contracted xs ys rs) -> alike r x xs c /\ alike r y ys c) /\
  readable m r /\ distinct_cells r /\ readable m x /\ readable m y /\ disjoint_views r x /\ disjoint_views r y /\
  exists F m', rfn_of (st "ij,jk->ik") = Ok F /\ rfn_call (R := ZRing) F r x y m = Ok m' /\ map (elem m' r) [[0; 0]; [0; 1]; [1; 0]; [1; 1]] = [Some 19; Some 22; Some 43; Some 150].
Proof.
  cbn zeta. split; [words|]. split; [words|]. split; [words|]. split; [split; reflexivity|]. split; [split; reflexivity|]. split; [split; reflexivity|].
  split. { intros c Hc. cbn in Hc |- *. tauto. } split; [reflexivity|].
  split. { intros c Hc. split; intros p _; split; reflexivity. }
  split; [now apply readable_by|]. split; [apply nodup_by; vm_compute; nodup|]. split; [now apply readable_by|]. split; [now apply readable_by|]. split; [now apply disjoint_by|]. split; [now apply disjoint_by|].
  do 2 eexists. split; [vm_compute; reflexivity|]. split; [vm_compute; reflexivity|]. vm_compute. reflexivity.
Qed.
(* a product of matrices of sides 2,3 and 3,2: the side of the contracted letter is read off r, so a third of the terms is lost *)
Theorem C118_contraction_refuted : ~ (forall xs ys rs D (r x y : view) (m : mem Z),
  worded xs -> worded ys -> worded rs -> lettered r rs D -> lettered x xs D -> lettered y ys D -> (forall c, In c ys -> In c xs \/ In c rs) ->
  (List.length (carried xs ys rs) <= 3)%nat -> (List.length (contracted xs ys rs) <= 3)%nat -> (List.length (spread xs ys rs) <= 3)%nat ->
  readable m r -> distinct_cells r -> readable m x -> readable m y -> disjoint_views r x -> disjoint_views r y ->
  exists F m', rfn_of (str2 xs ys rs) = Ok F /\ rfn_call (R := ZRing) F r x y m = Ok m' /\ adds (R := ZRing) m m' r rs D (esum (R := ZRing) m x y xs ys rs D)).
Proof.
  intro H. set (m := zm [1; 1; 1; 1; 1; 1; 1; 1; 1; 1; 1; 1; 0; 0; 0; 0]).
  destruct (H (st "ij") (st "jk") (st "ik") (fun c => if Ascii.eqb c "j"%char then 3 else 2) (View 0 12 [2; 2] [2; 1]) (View 0 0 [2; 3] [3; 1]) (View 0 6 [3; 2] [2; 1]) m) as (F & m' & E1 & E2 & A & _).
  1-3: words. 1-3: split; reflexivity. 1: intros c Hc; cbn in Hc |- *; tauto. 1-3: vm_compute; lia.
  1: now apply readable_by. 1: apply nodup_by; vm_compute; nodup. 1-2: now apply readable_by. 1-2: now apply disjoint_by.
  vm_compute in E1. injection E1 as <-. specialize (A (fun _ => 0)). assert (K : fits (fun c => if Ascii.eqb c "j"%char then 3 else 2) (fun _ => 0) (st "ik")) by (intros c _; destruct (Ascii.eqb c _); lia).
  specialize (A K). vm_compute in E2. injection E2 as <-. vm_compute in A. discriminate.
Qed.
Print Assumptions C118_contraction_refuted.
(* a letter that occurs in y only is not summed over: "i,ij->i" *)
Theorem C118_y_only_refuted : ~ (forall xs ys rs D (r x y : view) (m : mem Z),
  worded xs -> worded ys -> worded rs -> lettered r rs D -> lettered x xs D -> lettered y ys D ->
  (List.length (carried xs ys rs) <= 3)%nat -> (List.length (contracted xs ys rs) <= 3)%nat -> (List.length (spread xs ys rs) <= 3)%nat ->
  (forall c, In c (contracted xs ys rs) -> alike r x xs c /\ (In c xs -> alike r y ys c)) ->
  readable m r -> distinct_cells r -> readable m x -> readable m y -> disjoint_views r x -> disjoint_views r y ->
  exists F m', rfn_of (str2 xs ys rs) = Ok F /\ rfn_call (R := ZRing) F r x y m = Ok m' /\ adds (R := ZRing) m m' r rs D (esum (R := ZRing) m x y xs ys rs D)).
Proof.
  intro H. set (m := zm [1; 1; 1; 1; 1; 1; 0; 0]).
  destruct (H (st "i") (st "ij") (st "i") (fun c => 2) (View 0 6 [2] [1]) (View 0 0 [2] [1]) (View 0 2 [2; 2] [2; 1]) m) as (F & m' & E1 & E2 & A & _).
  1-3: words. 1-3: split; reflexivity. 1-3: vm_compute; lia.
  1: { intros c Hc. cbn in Hc. destruct Hc as [<-|[]]. split; [|intros [K|[]]; discriminate K]. intros p Hp. destruct p as [|[|p]]; discriminate Hp. }
  1: now apply readable_by. 1: apply nodup_by; vm_compute; nodup. 1-2: now apply readable_by. 1-2: now apply disjoint_by.
  vm_compute in E1. injection E1 as <-. specialize (A (fun _ => 0)). assert (K : fits (fun c => 2) (fun _ => 0) (st "i")) by (intros c _; lia).
  specialize (A K). vm_compute in E2. injection E2 as <-. vm_compute in A. discriminate.
Qed.
Print Assumptions C118_y_only_refuted.
(* x names no axis: "ix,xj->ij" multiplies the first column of x by the first row of y *)
Theorem C118_letter_x_refuted : ~ (forall xs ys rs D (r x y : view) (m : mem Z),
  plain xs -> plain ys -> plain rs -> lettered r rs D -> lettered x xs D -> lettered y ys D -> (forall c, In c ys -> In c xs \/ In c rs) ->
  (List.length (carried xs ys rs) <= 3)%nat -> (List.length (contracted xs ys rs) <= 3)%nat -> (List.length (spread xs ys rs) <= 3)%nat ->
  (forall c, In c (contracted xs ys rs) -> alike r x xs c /\ alike r y ys c) ->
  readable m r -> distinct_cells r -> readable m x -> readable m y -> disjoint_views r x -> disjoint_views r y ->
  exists F m', rfn_of (str2 xs ys rs) = Ok F /\ rfn_call (R := ZRing) F r x y m = Ok m' /\ adds (R := ZRing) m m' r rs D (esum (R := ZRing) m x y xs ys rs D)).
Proof.
  intro H. set (m := zm [1; 1; 1; 1; 1; 1; 1; 1; 0; 0; 0; 0]).
  destruct (H (st "ix") (st "xj") (st "ij") (fun c => 2) (View 0 8 [2; 2] [2; 1]) (View 0 0 [2; 2] [2; 1]) (View 0 4 [2; 2] [2; 1]) m) as (F & m' & E1 & E2 & A & _).
  1-3: words. 1-3: split; reflexivity. 1: intros c Hc; cbn in Hc |- *; tauto. 1-3: vm_compute; lia.
  1: intros c Hc; split; intros p _; split; reflexivity.
  1: now apply readable_by. 1: apply nodup_by; vm_compute; nodup. 1-2: now apply readable_by. 1-2: now apply disjoint_by.
  vm_compute in E1. injection E1 as <-. specialize (A (fun _ => 0)). assert (K : fits (fun c => 2) (fun _ => 0) (st "ij")) by (intros c _; lia).
  specialize (A K). vm_compute in E2. injection E2 as <-. vm_compute in A. discriminate.
Qed.
Print Assumptions C118_letter_x_refuted.
(* with more than three transferred letters nothing is done at all *)
Theorem C118_many_ignored (R : cring) xs ys rs (r x y : view) (m : mem (car R)) :
  worded xs -> worded ys -> worded rs -> (3 < List.length (carried xs ys rs))%nat ->
  exists F, rfn_of (str2 xs ys rs) = Ok F /\ rfn_call F r x y m = Ok m.
Proof.
  intros Wx Wy Wr H. exists (efn_std xs ys rs). split; [now apply rfn_of_ok|]. unfold rfn_call, efn_std. cbn [e_d]. rewrite map_length. now rewrite (proj2 (Nat.ltb_lt _ _) H).
Qed.
Print Assumptions C118_many_ignored.
Example C118_many_case : worded (st "ab") /\ worded (st "cd") /\ worded (st "abcd") /\ (3 < List.length (carried (st "ab") (st "cd") (st "abcd")))%nat.
Proof. split; [words|]. split; [words|]. split; [words|]. vm_compute. lia. Qed.
(* a string without an arrow, or without a comma before it, is not refused: the product of the first elements is added to the first element *)
Definition first (v : view) : list Z := map (fun _ => 0) (vdims v).
Lemma first_range v : positive (vdims v) -> in_range (first v) (vdims v).
Proof. unfold positive, in_range, first. induction (vdims v) as [|d l IH]; intro H; cbn; constructor; inversion H; subst; [lia|now apply IH]. Qed.
Lemma first_cell v : List.length (vstr v) = List.length (vdims v) -> cell v (first v) = (vblk v, voff v).
Proof.
  intro L. unfold cell, first. f_equal. replace (dot _ _) with 0; [lia|]. revert L. generalize (vstr v). induction (vdims v) as [|d l IH]; intros [|s t] L; try discriminate L; [reflexivity|]. cbn. rewrite <- IH by now injection L. lia.
Qed.
Theorem C118_malformed (R : cring) s (r x y : view) (m : mem (car R)) :
  (~ In ","%char s \/ ~ In "-"%char s \/ ~ In ">"%char s) -> vwf r -> vwf x -> vwf y -> positive (vdims r) -> positive (vdims x) -> positive (vdims y) -> readable m r -> readable m x -> readable m y ->
  exists F m', rfn_of s = Ok F /\ rfn_call F r x y m = Ok m' /\ elem m' r (first r) = Some (cadd (elem0 m r (first r)) (cmul (elem0 m x (first x)) (elem0 m y (first y)))).
Proof.
  intros Hs [Wr _] [Wx _] [Wy _] Pr Px Py Rr Rx Ry. exists (EFn [] [] []).
  assert (E : split3 s = None).
  { unfold split3. destruct (cut_arrow s) as [[xys rs]|] eqn:Ea; [|reflexivity]. destruct (cut_comma xys) as [[xs ys]|] eqn:Ec; [|reflexivity]. exfalso.
    assert (Ia : In "-"%char s /\ In ">"%char s /\ (forall c, In c xys -> In c s)).
    { clear Hs Ec. revert xys rs Ea. induction s as [|a s IH]; intros xys rs Ea; [discriminate|]. cbn [cut_arrow] in Ea. destruct (Ascii.eqb a "-"%char && _) eqn:E.
      - injection Ea as <- _. apply andb_true_iff in E as [E1 E2]. apply Ascii.eqb_eq in E1. destruct s as [|b s]; [discriminate|]. apply Ascii.eqb_eq in E2. subst. split; [now left|]. split; [right; now left|intros c []].
      - destruct (cut_arrow s) as [[l q]|]; [|discriminate]. injection Ea as <- _. destruct (IH l q eq_refl) as (A & B & C). split; [now right|]. split; [now right|]. intros c [->|Hc]; [now left|right; now apply C]. }
    assert (Ic : In ","%char xys).
    { clear - Ec. revert xs ys Ec. induction xys as [|a l IH]; intros xs ys Ec; [discriminate|]. cbn [cut_comma] in Ec. destruct (Ascii.eqb a ","%char) eqn:E; [apply Ascii.eqb_eq in E; subst; now left|].
      destruct (cut_comma l) as [[p q]|]; [|discriminate]. right. now apply (IH p q). }
    destruct Ia as (A & B & C). apply C in Ic. tauto. }
  pose proof (first_range r Pr) as Fr. pose proof (first_range x Px) as Fx. pose proof (first_range y Py) as Fy.
  assert (Er : at_ m (vblk r, voff r) = Some (elem0 m r (first r))) by (rewrite <- (first_cell r Wr); now apply read_some).
  assert (Ex : at_ m (vblk x, voff x) = Some (elem0 m x (first x))) by (rewrite <- (first_cell x Wx); now apply read_some).
  assert (Ey : at_ m (vblk y, voff y) = Some (elem0 m y (first y))) by (rewrite <- (first_cell y Wy); now apply read_some).
  assert (Ec : rfn_call (EFn [] [] []) r x y m = Ok (upd m (vblk r) (voff r) (cadd (elem0 m r (first r)) (cadd c0 (cmul (elem0 m x (first x)) (elem0 m y (first y))))))).
  { unfold rfn_call, d_par. cbn [e_d List.length Nat.ltb Nat.leb mapM bind map nest]. unfold rfn_s, s_par. cbn [e_s List.length Nat.ltb Nat.leb mapM bind map nest dot].
    rewrite !Z.add_0_r. rewrite (loadA_some _ _ _ Ex). cbn [bind]. rewrite (loadA_some _ _ _ Ey). cbn [bind]. unfold rfn_b, p_sum. cbn [e_b List.length Nat.ltb Nat.leb mapM bind map nest dot]. rewrite !Z.add_0_r.
    exact (incA_ok _ _ _ _ Er). }
  eexists. split; [unfold rfn_of; now rewrite E|]. split; [exact Ec|]. rewrite elem_cell by assumption. rewrite (first_cell r Wr). unfold at_, upd. cbn [fst snd]. rewrite !Z.eqb_refl. cbn [andb]. f_equal. f_equal. apply (Ring_theory.Radd_0_l (cth R)).
Qed.
Print Assumptions C118_malformed.
Example C118_malformed_case : let r := View 0 0 [2; 2] [2; 1] in let m := zm [5; 6; 7; 8] in
  ~ In ","%char (st "ij->ji") /\ vwf r /\ positive (vdims r) /\ readable m r /\ exists F m', rfn_of (st "ij->ji") = Ok F /\ rfn_call (R := ZRing) F r r r m = Ok m' /\ elem m' r [0; 0] = Some 30.
Proof.
  cbn zeta. split; [cbn; intros K; repeat (destruct K as [K|K]; [discriminate K|]); destruct K|]. split; [repeat split; cbn; repeat constructor; lia|]. split; [repeat constructor|]. split; [now apply readable_by|].
  do 2 eexists. split; [vm_compute; reflexivity|]. split; [vm_compute; reflexivity|]. reflexivity.
Qed.

(* ---- C119 *)
Theorem C119_add (R : cring) cx cy cr xs ys rs D (r x y : view) (m : mem (car R)) :
  worded xs -> worded ys -> worded rs -> marked cx xs <> [] -> marked cy ys <> [] -> marked cr rs <> [] ->
  clettered r rs D -> clettered x xs D -> clettered y ys D -> (forall c, In c ys -> In c xs \/ In c rs) ->
  (List.length (carried xs ys rs) <= 4)%nat -> (List.length (contracted xs ys rs) <= 3)%nat -> (List.length (spread xs ys rs) <= 3)%nat ->
  (List.length (contracted xs ys rs) = 3%nat -> xorb cr cx = false) ->
  readable m r -> distinct_cells r -> readable m x -> readable m y -> disjoint_views r x -> disjoint_views r y ->
  exists F m', cfn_of (strc cx cy cr xs ys rs) = Ok F /\ cfn_call F r x y m = Ok m' /\ cadds m m' r rs D (cesum (xorb cr cx) (xorb cr cy) m x y xs ys rs D).
Proof. intros. now apply cfn_call_ok. Qed.
Print Assumptions C119_add.
(* r(i) += conj x(i,j) y(j): x of sides 2,2 *)
Definition mc : mem Z := zm [1; 2; 3; 4; 5; 6; 7; 8; 1; 1; 2; 0; 0; 0; 9; 9].
Example C119_case : let x := View 0 0 [2; 2; 2] [4; 2; 1] in let y := View 0 8 [2; 2] [2; 1] in let r := View 0 12 [2; 2] [2; 1] in
  let xs := st "ij" in let ys := st "j" in let rs := st "i" in let D := fun _ : ascii => 2 in
  strc true false false xs ys rs = st "ij*,j->i" /\ worded xs /\ worded ys /\ worded rs /\ clettered r rs D /\ clettered x xs D /\ clettered y ys D /\ (forall c, In c ys -> In c xs \/ In c rs) /\
  contracted xs ys rs = st "j" /\ readable mc r /\ distinct_cells r /\ readable mc x /\ readable mc y /\ disjoint_views r x /\ disjoint_views r y /\
  exists F m', cfn_of (st "ij*,j->i") = Ok F /\ cfn_call (R := ZRing) F r x y mc = Ok m' /\ map (elem m' r) [[0; 0]; [0; 1]; [1; 0]; [1; 1]] = [Some 9; Some (-9); Some 34; Some (-8)].
Proof.
  cbn zeta. split; [reflexivity|]. split; [words|]. split; [words|]. split; [words|]. split; [split; reflexivity|]. split; [split; reflexivity|]. split; [split; reflexivity|].
  split. { intros c Hc. cbn in Hc |- *. tauto. } split; [reflexivity|].
  split; [now apply readable_by|]. split; [apply nodup_by; vm_compute; nodup|]. split; [now apply readable_by|]. split; [now apply readable_by|]. split; [now apply disjoint_by|]. split; [now apply disjoint_by|].
  do 2 eexists. split; [vm_compute; reflexivity|]. split; [vm_compute; reflexivity|]. vm_compute. reflexivity.
Qed.
(* with three contracted letters and x conjugated, y is conjugated when it should not be and not when it should *)
Theorem C119_three_refuted : forall cy, ~ (forall xs ys rs D (r x y : view) (m : mem Z),
  worded xs -> worded ys -> worded rs -> xs <> [] -> ys <> [] -> rs <> [] ->
  clettered r rs D -> clettered x xs D -> clettered y ys D -> (forall c, In c ys -> In c xs \/ In c rs) ->
  (List.length (carried xs ys rs) <= 4)%nat -> (List.length (contracted xs ys rs) <= 3)%nat -> (List.length (spread xs ys rs) <= 3)%nat ->
  readable m r -> distinct_cells r -> readable m x -> readable m y -> disjoint_views r x -> disjoint_views r y ->
  exists F m', cfn_of (strc true cy false xs ys rs) = Ok F /\ cfn_call (R := ZRing) F r x y m = Ok m' /\ cadds (R := ZRing) m m' r rs D (cesum (R := ZRing) true cy m x y xs ys rs D)).
Proof.
  intros cy H. set (m := zm [1; 0; 0; 1; 0; 0]).
  destruct (H (st "abc") (st "abc") (st "i") (fun _ => 1) (View 0 4 [1; 2] [2; 1]) (View 0 0 [1; 1; 1; 2] [2; 2; 2; 1]) (View 0 2 [1; 1; 1; 2] [2; 2; 2; 1]) m) as (F & m' & E1 & E2 & _ & A & _).
  1-3: words. 1-3: discriminate. 1-3: split; reflexivity. 1: intros c Hc; cbn in Hc |- *; tauto. 1-3: vm_compute; lia.
  1: now apply readable_by. 1: apply nodup_by; vm_compute; nodup. 1-2: now apply readable_by. 1-2: now apply disjoint_by.
  specialize (A (fun _ => 0)). assert (K : fits (fun _ => 1) (fun _ => 0) (st "i")) by (intros c _; lia). specialize (A K).
  destruct cy; vm_compute in E1; injection E1 as <-; vm_compute in E2; injection E2 as <-; vm_compute in A; discriminate.
Qed.
Print Assumptions C119_three_refuted.
Theorem C119_y_only_refuted : ~ (forall xs ys rs D (r x y : view) (m : mem Z),
  worded xs -> worded ys -> worded rs -> xs <> [] -> ys <> [] -> rs <> [] -> clettered r rs D -> clettered x xs D -> clettered y ys D ->
  (List.length (carried xs ys rs) <= 4)%nat -> (List.length (contracted xs ys rs) <= 2)%nat -> (List.length (spread xs ys rs) <= 3)%nat ->
  readable m r -> distinct_cells r -> readable m x -> readable m y -> disjoint_views r x -> disjoint_views r y ->
  exists F m', cfn_of (strc false false false xs ys rs) = Ok F /\ cfn_call (R := ZRing) F r x y m = Ok m' /\ cadds (R := ZRing) m m' r rs D (cesum (R := ZRing) false false m x y xs ys rs D)).
Proof.
  intro H. set (m := zm [1; 0; 1; 0; 1; 0; 0; 0]). set (D := fun c => if Ascii.eqb c "j"%char then 2 else 1).
  destruct (H (st "i") (st "ij") (st "i") D (View 0 6 [1; 2] [2; 1]) (View 0 0 [1; 2] [2; 1]) (View 0 2 [1; 2; 2] [4; 2; 1]) m) as (F & m' & E1 & E2 & _ & A & _).
  1-3: words. 1-3: discriminate. 1-3: split; reflexivity. 1-3: vm_compute; lia.
  1: now apply readable_by. 1: apply nodup_by; vm_compute; nodup. 1-2: now apply readable_by. 1-2: now apply disjoint_by.
  specialize (A (fun _ => 0)). assert (K : fits D (fun _ => 0) (st "i")) by (intros c _; unfold D; destruct (Ascii.eqb c _); lia). specialize (A K).
  vm_compute in E1. injection E1 as <-. vm_compute in E2. injection E2 as <-. vm_compute in A. discriminate.
Qed.
Print Assumptions C119_y_only_refuted.
(* with more than four transferred letters nothing is done; a sum to a scalar ("i,i->") and any other empty part, and the use of a malformed string, are undefined *)
Theorem C119_many_ignored (R : cring) cx cy cr xs ys rs (r x y : view) (m : mem (car R)) :
  worded xs -> worded ys -> worded rs -> marked cx xs <> [] -> marked cy ys <> [] -> marked cr rs <> [] -> (4 < List.length (carried xs ys rs))%nat ->
  exists F, cfn_of (strc cx cy cr xs ys rs) = Ok F /\ cfn_call F r x y m = Ok m.
Proof.
  intros Wx Wy Wr Mx My Mr H. eexists. split; [now apply cfn_of_ok|]. unfold cfn_call, efn_std. cbn [e_d fst]. rewrite map_length. now rewrite (proj2 (Nat.ltb_lt _ _) H).
Qed.
Print Assumptions C119_many_ignored.
Example C119_many_case : worded (st "abc") /\ worded (st "de") /\ worded (st "abcde") /\ (4 < List.length (carried (st "abc") (st "de") (st "abcde")))%nat.
Proof. split; [words|]. split; [words|]. split; [words|]. vm_compute. lia. Qed.
Theorem C119_scalar_refuted : forall xs ys, worded xs -> worded ys -> cfn_of (str2 xs ys []) = UB.
Proof. intros xs ys Wx Wy. unfold cfn_of. rewrite split3_ok by (eapply worded_no; eauto). reflexivity. Qed.
Print Assumptions C119_scalar_refuted.
Theorem C119_malformed_refuted (R : cring) s (r x y : view) (m : mem (car R)) : (~ In ","%char s \/ ~ In "-"%char s \/ ~ In ">"%char s) -> exists F, cfn_of s = Ok F /\ cfn_call F r x y m = UB.
Proof.
  intro Hs. assert (E : split3 s = None).
  { unfold split3. destruct (cut_arrow s) as [[xys rs]|] eqn:Ea; [|reflexivity]. destruct (cut_comma xys) as [[xs ys]|] eqn:Ec; [|reflexivity]. exfalso.
    assert (Ia : In "-"%char s /\ In ">"%char s /\ (forall c, In c xys -> In c s)).
    { clear Hs Ec. revert xys rs Ea. induction s as [|a s IH]; intros xys rs Ea; [discriminate|]. cbn [cut_arrow] in Ea. destruct (Ascii.eqb a "-"%char && _) eqn:E.
      - injection Ea as <- _. apply andb_true_iff in E as [E1 E2]. apply Ascii.eqb_eq in E1. destruct s as [|b s]; [discriminate|]. apply Ascii.eqb_eq in E2. subst. split; [now left|]. split; [right; now left|intros c []].
      - destruct (cut_arrow s) as [[l q]|]; [|discriminate]. injection Ea as <- _. destruct (IH l q eq_refl) as (A & B & C). split; [now right|]. split; [now right|]. intros c [->|Hc]; [now left|right; now apply C]. }
    assert (Ic : In ","%char xys).
    { clear - Ec. revert xs ys Ec. induction xys as [|a l IH]; intros xs ys Ec; [discriminate|]. cbn [cut_comma] in Ec. destruct (Ascii.eqb a ","%char) eqn:E; [apply Ascii.eqb_eq in E; subst; now left|].
      destruct (cut_comma l) as [[p q]|]; [|discriminate]. right. now apply (IH p q). }
    destruct Ia as (A & B & C). apply C in Ic. tauto. }
  eexists. split; [unfold cfn_of; now rewrite E|]. reflexivity.
Qed.
Print Assumptions C119_malformed_refuted.
