(* Proofs_BGprod.v -- traversals of batched and gridded tensors that add to one of them. *)
From Verif Require Import Base BaseFacts Model_Index Model_View Spec_Index Proofs_Index Spec_View Proofs_View Model_Tensor Spec_Tensor Proofs_Tensor Proofs_Tensor2 Proofs_Tensor3 Model_Threads Model_BG Spec_BG Proofs_BG Proofs_BG2 Proofs_BG3 Prop_BG Model_BGprod Spec_BGprod.
From Coq Require Import Permutation.
Local Open Scope Z_scope.

Lemma in_range_skipn n : forall k d, in_range k d -> in_range (skipn n k) (skipn n d).
Proof. induction n as [|n IH]; intros k d H; [assumption|]. inversion H; subst; cbn [skipn]; [constructor|now apply IH]. Qed.
Definition pre (b : Z) (g : list Z) (c : Z * list Z) : list Z := (if b =? 1 then 0 else fst c) :: match g with [] => [] | _ => snd c end.
Lemma part_cells b g c cl jx : in_range jx c -> part b g c (cl, jx) = pre b g cl ++ jx.
Proof. intro Hj. unfold part, pre. cbn [fst snd app]. destruct c; [inversion Hj; reflexivity|reflexivity]. Qed.
Lemma part_none b g cl jx : part b g [] (cl, jx) = pre b g cl.
Proof. unfold part, pre. cbn [fst snd]. now rewrite app_nil_r. Qed.
Lemma shaped_inj x b g c b' g' c' : shaped x b g c -> shaped x b' g' c' -> b' = b /\ g' = g /\ c' = c.
Proof.
  intros (Ed' & En' & _) (Ed & En & _). rewrite Ed in Ed'. injection Ed' as -> Ea. rewrite En in En'. apply Nat2Z.inj in En'. split; [reflexivity|].
  revert Ea En'. clear. revert g. induction g' as [|z g' IH]; intros [|z' g] Ea L; try discriminate; cbn in Ea; [auto|]. injection Ea as -> Ea. destruct (IH g Ea) as [-> ->]; [now injection L|auto].
Qed.
Lemma cell_facts x b g c i ix v : shaped x b g c -> is_cell x i ix v -> vdims v = c /\ vwf v /\
  forall jx, in_range jx c -> in_range (pre b g (i, ix) ++ jx) (vdims (bv x)) /\ vaddr v jx = vaddr (bv x) (pre b g (i, ix) ++ jx).
Proof.
  intros Hs (b' & g' & c' & Hs' & Ed & W & Sh). destruct (shaped_inj _ _ _ _ _ _ _ Hs Hs') as (-> & -> & ->). split; [assumption|]. split; [assumption|].
  intros jx Hj. apply Sh. now rewrite Ed.
Qed.
Lemma cell_elem {V} (m : mem V) x b g c i ix v jx : shaped x b g c -> is_cell x i ix v -> in_range jx c -> elem m v jx = elem m (bv x) (pre b g (i, ix) ++ jx).
Proof. intros Hs Hc Hj. unfold elem. destruct (cell_facts _ _ _ _ _ _ _ Hs Hc) as (_ & _ & H). now rewrite (proj2 (H jx Hj)). Qed.
Lemma cell_readable {V} (m : mem V) x b g c i ix v : shaped x b g c -> is_cell x i ix v -> readable m (bv x) -> readable m v.
Proof.
  intros Hs Hc Rx jx Hj. destruct (cell_facts _ _ _ _ _ _ _ Hs Hc) as (Ed & _ & H). rewrite Ed in Hj. rewrite (cell_elem m x b g c i ix) by assumption. apply Rx. now apply H.
Qed.
Lemma cell_distinct x b g c i ix v : shaped x b g c -> is_cell x i ix v -> distinct_cells (bv x) -> distinct_cells v.
Proof.
  intros Hs Hc D jx jy Hj Hk E. destruct (cell_facts _ _ _ _ _ _ _ Hs Hc) as (Ed & _ & H). rewrite Ed in *. destruct (H jx Hj) as (I1 & A1). destruct (H jy Hk) as (I2 & A2).
  rewrite A1, A2 in E. apply D in E; [|assumption|assumption]. now apply app_inv_head in E.
Qed.
Lemma cell_disjoint r br gr cr x bx gx cx i ix rv xv : shaped r br gr cr -> shaped x bx gx cx -> is_cell r i ix rv -> is_cell x i ix xv -> disjoint_views (bv r) (bv x) -> disjoint_views rv xv.
Proof.
  intros Hr Hx Cr Cx D jx jy Hj Hk E. destruct (cell_facts _ _ _ _ _ _ _ Hr Cr) as (Er & _ & Fr). destruct (cell_facts _ _ _ _ _ _ _ Hx Cx) as (Ex & _ & Fx). rewrite Er in Hj. rewrite Ex in Hk.
  destruct (Fr jx Hj) as (I1 & A1). destruct (Fx jy Hk) as (I2 & A2). rewrite A1, A2 in E. now apply D in E.
Qed.
Lemma cell_untouched {V} (m m' : mem V) r br gr cr i ix rv : shaped r br gr cr -> is_cell r i ix rv -> untouched m m' rv -> untouched m m' (bv r).
Proof.
  intros Hr Cr U b a Hba. apply U. intros jx Hj. destruct (cell_facts _ _ _ _ _ _ _ Hr Cr) as (Er & _ & Fr). rewrite Er in Hj. destruct (Fr jx Hj) as (I & A). rewrite A. now apply Hba.
Qed.
Lemma untouched_trans {V} (m1 m2 m3 : mem V) v : untouched m1 m2 v -> untouched m2 m3 v -> untouched m1 m3 v.
Proof. intros U1 U2 b a H. rewrite (U2 b a H). now apply U1. Qed.
Lemma disjoint_elem {V} (m m' : mem V) r x ix : untouched m m' r -> disjoint_views r x -> in_range ix (vdims x) -> elem m' x ix = elem m x ix.
Proof.
  intros U D Hi. unfold elem. destruct (vaddr x ix) as [[b a]| |] eqn:E; try reflexivity. apply U. intros jx Hj E'. apply (D jx ix Hj Hi). congruence.
Qed.

Lemma pre_length br gr B gd (c : Z * list Z) : (gr = [] \/ gr = gd) -> In c (all_cells B gd) -> length (pre br gr c) = S (length gr).
Proof.
  intros Hg Hc. unfold all_cells in Hc. apply in_flat_map in Hc as (b & _ & Hc). apply in_map_iff in Hc as (ix & <- & Hi). apply in_all_indices in Hi. unfold pre. cbn [length fst snd]. f_equal.
  destruct gr; [reflexivity|]. destruct Hg as [|<-]; [discriminate|]. now apply in_range_length.
Qed.

Section One.
Context {R : cring}.
Add Ring Rring : (cth R).
Notation memR := (mem (car R)).
Lemma elem0_some (m : memR) v ix : elem m v ix <> None -> elem m v ix = Some (elem0 m v ix).
Proof. unfold elem0. destruct (elem m v ix); [reflexivity|congruence]. Qed.
Variables (r : bg) (br : Z) (gr cr : list Z).
Hypothesis Hr : shaped r br gr cr.
Hypothesis Dr : distinct_cells (bv r).
(* the amount that a visit of cell c adds to element k of r if it adds G jx to the elements jx of the cell *)
Definition share (G : Z * list Z -> list Z -> R) (c : Z * list Z) (k : list Z) : R :=
  if list_eq_dec Z.eq_dec (pre br gr c) (firstn (S (length gr)) k) then G c (skipn (S (length gr)) k) else c0.
Lemma in_all_cells B gd c : In c (all_cells B gd) <-> 0 <= fst c < B /\ in_range (snd c) gd.
Proof.
  unfold all_cells. rewrite in_flat_map. split.
  - intros (b & Hb & Hc). apply in_map_iff in Hc as (ix & <- & Hi). apply in_all_indices in Hi. apply in_zrange in Hb. auto.
  - intros (Hb & Hi). exists (fst c). split; [now apply in_zrange|]. apply in_map_iff. exists (snd c). split; [now destruct c|now apply in_all_indices].
Qed.
Lemma lift_cell B gd c rv (m m' : memR) G : (gr = [] \/ gr = gd) -> In c (all_cells B gd) -> is_cell r (fst c) (snd c) rv -> readable m (bv r) ->
  (forall jx, in_range jx cr -> elem m' rv jx = Some (cadd (elem0 m rv jx) (G c jx))) -> untouched m m' rv ->
  forall k, in_range k (vdims (bv r)) -> elem m' (bv r) k = Some (cadd (elem0 m (bv r) k) (share G c k)).
Proof.
  intros Hg Hc Cr Rm E U k Hk. destruct (cell_facts _ _ _ _ _ _ _ Hr Cr) as (Er & _ & Fr). rewrite <- surjective_pairing in Fr.
  assert (Lp := pre_length br gr B gd c Hg Hc). unfold share. destruct (list_eq_dec _ _ _) as [Ep|Np].
  - assert (Hj : in_range (skipn (S (length gr)) k) cr).
    { assert (Hk' := Hk). destruct Hr as (Ed & _). rewrite Ed in Hk'. apply (in_range_skipn (S (length gr))) in Hk'. cbn [skipn] in Hk'. now rewrite skipn_app, skipn_all, Nat.sub_diag in Hk'. }
    assert (Ek : k = pre br gr c ++ skipn (S (length gr)) k) by (rewrite Ep; now rewrite firstn_skipn).
    specialize (E _ Hj). unfold elem0 in E. rewrite (cell_elem m' r br gr cr (fst c) (snd c)), (cell_elem m r br gr cr (fst c) (snd c)) in E by assumption. replace (fst c, snd c) with c in E by now destruct c. rewrite <- Ek in E. exact E.
  - assert (Em : elem m' (bv r) k = elem m (bv r) k).
    { unfold elem. destruct (vaddr (bv r) k) as [[b a]| |] eqn:Ea; try reflexivity. apply U. intros jx Hj Ea'. rewrite Er in Hj. destruct (Fr jx Hj) as (I & A). rewrite A, <- Ea in Ea'. apply Dr in Ea'; [|assumption|assumption].
      apply Np. rewrite <- Ea', <- Lp, firstn_app, Nat.sub_diag, firstn_all. cbn. now rewrite app_nil_r. }
    rewrite Em, (elem0_some m) by now apply Rm. f_equal. ring.
Qed.
Variables (xs : list bg) (B : Z) (gd : list Z) (f : list view -> memR -> res memR) (m0 : memR) (G : Z * list Z -> list Z -> R).
Hypothesis Hg : gr = [] \/ gr = gd.
Hypothesis Rr : readable m0 (bv r).
Hypothesis step : forall c vs m, In c (all_cells B gd) -> right_cells xs (c, vs) -> readable m (bv r) -> untouched m0 m (bv r) ->
  exists rv m', is_cell r (fst c) (snd c) rv /\ f vs m = Ok m' /\ (forall jx, in_range jx cr -> elem m' rv jx = Some (cadd (elem0 m rv jx) (G c jx))) /\ untouched m m' rv.
Lemma fold_cells l : (forall c, In c l -> In (fst c) (all_cells B gd) /\ right_cells xs c) -> forall m, readable m (bv r) -> untouched m0 m (bv r) ->
  exists m', run_calls f l m = Ok m' /\ untouched m0 m' (bv r) /\
    forall k, in_range k (vdims (bv r)) -> elem m' (bv r) k = Some (cadd (elem0 m (bv r) k) (rsum (map (fun c => share G (fst c) k) l))).
Proof.
  induction l as [|[c vs] l IH]; intros Hl m Rm Um.
  - exists m. split; [reflexivity|]. split; [assumption|]. intros k Hk. cbn [map]. rewrite rsum_nil. rewrite elem0_some by now apply Rm. f_equal. ring.
  - destruct (Hl (c, vs)) as (Hc & Hv); [now left|]. cbn [fst] in Hc. destruct (step c vs m Hc Hv Rm Um) as (rv & m1 & Cr & E1 & E & U).
    assert (El := lift_cell B gd c rv m m1 G Hg Hc Cr Rm E U). assert (U1 := cell_untouched m m1 r br gr cr (fst c) (snd c) rv Hr Cr U).
    assert (R1 : readable m1 (bv r)) by (intros k Hk; rewrite El by assumption; discriminate).
    destruct (IH (fun c Hc => Hl c (or_intror Hc)) m1 R1 (untouched_trans _ _ _ _ Um U1)) as (m2 & E2 & U2 & El2).
    exists m2. split; [unfold run_calls; cbn [foldM snd]; rewrite E1; exact E2|]. split; [assumption|].
    intros k Hk. rewrite El2 by assumption. unfold elem0 at 1. rewrite El by assumption. cbn [map fst]. rewrite rsum_cons. f_equal. ring.
Qed.
Lemma over_ok dB dg target nt out : dB = Ok B -> dg = Ok gd -> 0 <= B -> nonneg gd -> Forall (joins B gd) xs -> lone xs target \/ nt <= 1 \/ gd = [] ->
  over_cells xs dB dg target nt f m0 out ->
  exists m', out = Ok m' /\ untouched m0 m' (bv r) /\
    forall k, in_range k (vdims (bv r)) -> elem m' (bv r) k = Some (cadd (elem0 m0 (bv r) k) (rsum (map (fun c => share G c k) (all_cells B gd)))).
Proof.
  intros -> -> HB Ng J Hc O. unfold over_cells in O. cbn [bind] in O. destruct O as (tr & T & Rt & ->).
  assert (P := proj2 (C44_each_cell_once xs B gd target nt tr HB Ng J T) Rt). change (trace_calls tr) with (calls tr).
  assert (F : Forall (right_cells xs) (calls tr)).
  { destruct Hc as [Hc|[Hc|Hc]]; [apply (C44_sequential xs B gd target nt tr); auto|apply (C44_sequential xs B gd target nt tr); auto|]. subst gd. now apply (C44_no_grid xs B target nt tr). }
  destruct (fold_cells (calls tr)) with (m := m0) as (m' & E & U & El).
  - intros c Hcc. split; [|rewrite Forall_forall in F; now apply F]. apply (Permutation_in _ P). unfold called. now apply in_map.
  - assumption.
  - intros b a _. reflexivity.
  - exists m'. split; [assumption|]. split; [assumption|]. intros k Hk. rewrite El by assumption. do 2 f_equal.
    rewrite <- (map_map fst (fun c => share G c k)). apply rsum_perm. now apply Permutation_map.
Qed.
End One.

(* ---- the sum over places ---- *)
Section Places.
Context {R : cring}.
Add Ring Rring : (cth R).
Lemma rsum_none {A} (F : A -> R) (p : A -> bool) l : (forall a, In a l -> p a = false) -> rsum (map F (filter p l)) = c0.
Proof. induction l as [|a l IH]; intro H; cbn; [reflexivity|]. rewrite (H a) by now left. apply IH. intros; apply H; now right. Qed.
Lemma filter_true {A} (p : A -> bool) l : (forall a, In a l -> p a = true) -> filter p l = l.
Proof. induction l as [|a l IH]; intro H; cbn; [reflexivity|]. rewrite (H a) by now left. f_equal. apply IH. intros; apply H; now right. Qed.
Lemma rsum_single {A} (F : A -> R) (p : A -> bool) l a : NoDup l -> In a l -> (forall x, In x l -> p x = true <-> x = a) -> rsum (map F (filter p l)) = F a.
Proof.
  induction 1 as [|x l Nx N IH]; intros Ha H; [destruct Ha|]. cbn [filter]. destruct (p x) eqn:E.
  - assert (x = a) by (apply H; [now left|assumption]). subst x. cbn [map]. rewrite rsum_cons, rsum_none; [ring|]. intros y Hy. destruct (p y) eqn:Ey; [|reflexivity]. assert (y = a) by (apply H; [now right|assumption]). congruence.
  - destruct Ha as [->|Ha]; [assert (p a = true) by (apply H; [now left|reflexivity]); congruence|]. apply IH; [assumption|]. intros y Hy. apply H. now right.
Qed.
Lemma sum_places br gr cr B gd cd (G : Z * list Z -> list Z -> R) (F : place -> R) k : (gr = [] \/ gr = gd) -> nonneg cd -> in_range k (br :: gr ++ cr) ->
  (cr = cd /\ (forall c jx, In c (all_cells B gd) -> in_range jx cd -> G c jx = F (c, jx))) \/
  (cr = [] /\ forall c, In c (all_cells B gd) -> G c [] = rsum (map (fun jx => F (c, jx)) (all_indices cd))) ->
  rsum (map (fun c => share br gr G c k) (all_cells B gd)) = rsum (map F (filter (fun f => same_index (part br gr cr f) k) (all_places B gd cd))).
Proof.
  intros Hg Nc Hk H. unfold all_places.
  assert (I : forall c, In c (all_cells B gd) -> In c (all_cells B gd)) by auto. revert I. generalize (all_cells B gd) at 1 3 4 as l. induction l as [|c l IH]; intro I; [reflexivity|].
  cbn [map flat_map]. rewrite rsum_cons. rewrite filter_app, map_app, rsum_app, IH by (intros; apply I; now right). f_equal. assert (Hc := I c (or_introl eq_refl)). clear IH I.
  assert (Lp := pre_length br gr B gd c Hg Hc). assert (Hs := in_range_skipn (S (length gr)) _ _ Hk). cbn [skipn] in Hs. rewrite skipn_app, skipn_all, Nat.sub_diag in Hs. cbn [skipn app] in Hs.
  assert (Ef : forall p : place -> bool, rsum (map F (filter p (map (pair c) (all_indices cd)))) = rsum (map (fun jx => F (c, jx)) (filter (fun jx => p (c, jx)) (all_indices cd)))).
  { intro p. generalize (all_indices cd). induction l0 as [|jx l0 IH]; [reflexivity|]. cbn [map filter]. destruct (p (c, jx)); cbn [map]; rewrite ?rsum_cons; now rewrite IH. }
  rewrite Ef. unfold share. destruct H as [(-> & H)|(-> & H)].
  - destruct (list_eq_dec _ _ _) as [E|N].
    + rewrite (rsum_single _ _ _ (skipn (S (length gr)) k)).
      * apply H; assumption.
      * apply all_indices_nodup.
      * now apply in_all_indices.
      * intros jx Hj. apply in_all_indices in Hj. rewrite part_cells by assumption. unfold same_index. destruct (list_eq_dec _ _ _) as [E'|N'].
        -- split; [intros _|reflexivity]. rewrite <- E', <- Lp, skipn_app, skipn_all, Nat.sub_diag. reflexivity.
        -- split; [discriminate|]. intros ->. exfalso. apply N'. rewrite E. apply firstn_skipn.
    + symmetry. apply rsum_none. intros jx Hj. apply in_all_indices in Hj. rewrite part_cells by assumption. unfold same_index. destruct (list_eq_dec _ _ _) as [E'|N']; [|reflexivity].
      exfalso. apply N. rewrite <- E', <- Lp, firstn_app, Nat.sub_diag, firstn_all. cbn. now rewrite app_nil_r.
  - rewrite app_nil_r in Hk. assert (Lk := in_range_length _ _ Hk). cbn [length] in Lk.
    assert (Ek : firstn (S (length gr)) k = k) by (rewrite <- Lk; apply firstn_all). rewrite Ek. rewrite (skipn_all2 k) by lia. destruct (list_eq_dec _ _ _) as [E|N].
    + rewrite filter_true; [now apply H|]. intros jx _. rewrite part_none. unfold same_index. destruct (list_eq_dec _ _ _); congruence.
    + symmetry. apply rsum_none. intros jx _. rewrite part_none. unfold same_index. destruct (list_eq_dec _ _ _); congruence.
Qed.
End Places.

(* ---- outcome in terms of places ---- *)
Lemma adds_ok {R : cring} r br gr cr xs B gd cd (f : list view -> mem (car R) -> res (mem (car R))) m0 (F : place -> R) dB dg target nt out :
  shaped r br gr cr -> target_ok m0 r -> (gr = [] \/ gr = gd) -> (cr = cd \/ cr = []) ->
  (forall c vs m, In c (all_cells B gd) -> right_cells xs (c, vs) -> readable m (bv r) -> untouched m0 m (bv r) ->
    exists rv m', is_cell r (fst c) (snd c) rv /\ f vs m = Ok m' /\
      (forall jx, in_range jx cr -> elem m' rv jx = Some (cadd (elem0 m rv jx) (if list_eq_dec Z.eq_dec cr cd then F (c, jx) else rsum (map (fun jx => F (c, jx)) (all_indices cd))))) /\ untouched m m' rv) ->
  dB = Ok B -> dg = Ok gd -> 0 <= B -> nonneg gd -> nonneg cd -> Forall (joins B gd) xs -> lone xs target \/ nt <= 1 \/ gd = [] ->
  over_cells xs dB dg target nt f m0 out -> exists m', out = Ok m' /\ adds m0 m' r br gr cr B gd cd F.
Proof.
  intros Hr (Dr & Rr) Hg Hc St EB Eg HB Ng Nc J Cm O.
  destruct (over_ok r br gr cr Hr Dr xs B gd f m0 (fun c jx => if list_eq_dec Z.eq_dec cr cd then F (c, jx) else rsum (map (fun jx => F (c, jx)) (all_indices cd))) Hg Rr St dB dg target nt out EB Eg HB Ng J Cm O) as (m' & -> & U & E).
  exists m'. split; [reflexivity|]. split; [|assumption]. intros k Hk. rewrite E by assumption. do 2 f_equal. apply sum_places; [assumption|assumption| |].
  - destruct Hr as (Ed & _). now rewrite Ed in Hk.
  - destruct (list_eq_dec Z.eq_dec cr cd) as [Ec|Nc']; [left; split; [assumption|reflexivity]|right]. split; [now destruct Hc|reflexivity].
Qed.
