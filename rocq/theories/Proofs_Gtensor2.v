(* Proofs_Gtensor2.v -- stand-alone tensors: construction, views, slices, elementwise operations. *)
From Verif Require Import Base BaseFacts Model_Index Model_View Model_Tensor Model_Gtensor
  Spec_Index Spec_View Spec_Tensor Spec_Gtensor Proofs_Index Proofs_View2 Proofs_Sparse Proofs_Gtensor.
Local Open Scope Z_scope.

Section Shapes.
Context {V : Type}.
Notation heapV := (heap V).
Lemma plain_dot (h : heapV) t dims ix : plain h t dims -> in_range ix dims -> dot (gstr t) ix = flat ix dims /\ length ix = length (gstr t).
Proof.
  intros (_ & _ & _ & _ & Hs & _) Hr. apply in_range_length in Hr. rewrite Hs. split; [rewrite dot_strides_of by assumption; ring|now rewrite strides_of_length].
Qed.
Lemma plain_laid (h : heapV) t dims : plain h t dims -> laid h t dims.
Proof.
  intro HP. pose proof HP as (Hn & Hnn & Hd & Hk & Hs & Ha & Hm & Hc). split; [exact Hd|split; [exact Hk|split; [now rewrite Hs, strides_of_length|split; [exact Hnn|]]]].
  rewrite Hm. split; [exact Hc|split].
  - intros ix jx Hi Hj. cbn in Hi, Hj. rewrite Hd in Hi, Hj. destruct Hc as (b & Hb & _). destruct (plain_dot h t dims ix HP Hi) as (E1 & L1), (plain_dot h t dims jx HP Hj) as (E2 & L2).
    rewrite (vaddr_g t b ix Hb L1), (vaddr_g t b jx Hb L2), E1, E2. intro E. injection E as E. now apply (flat_inj ix jx dims).
  - intros ix Hr. destruct (plain_dot h t dims ix HP Hr) as (-> & _). now apply flat_range.
Qed.
Lemma plain_gel (h : heapV) t dims b ix : plain h t dims -> garr t = Some b -> in_range ix dims -> gel h t ix = hmem h b (flat ix dims).
Proof. intros HP Hb Hr. destruct (plain_dot h t dims ix HP Hr) as (E & L). now rewrite (gel_eq h t b ix Hb L), E. Qed.
Lemma padded_dot (h : heapV) t adims dims P ia ic : padded h t adims dims P -> in_range ia adims -> in_range ic dims ->
  dot (gstr t) (ia ++ ic) = P * flat ia adims + flat ic dims.
Proof.
  intros (_ & _ & _ & _ & _ & _ & _ & Hs & _) Ha Hc. apply in_range_length in Ha, Hc. rewrite Hs, dot_app by (now rewrite strides_of_length). rewrite !dot_strides_of by assumption. ring.
Qed.
Lemma in_range_split ix (a b : list Z) : in_range ix (a ++ b) -> exists ia ib, ix = ia ++ ib /\ in_range ia a /\ in_range ib b.
Proof.
  revert ix. induction a as [|x a IH]; intros ix H; [exists [], ix; split; [reflexivity|split; [constructor|exact H]]|].
  cbn in H. inversion H as [|i ? ix' ? Hi Hr]; subst. destruct (IH ix' Hr) as (ia & ib & -> & H1 & H2). exists (i :: ia), ib. split; [reflexivity|split; [now constructor|exact H2]].
Qed.
Lemma padded_laid (h : heapV) t adims dims P : padded h t adims dims P -> laid h t (adims ++ dims).
Proof.
  intro HP. pose proof HP as (Hn & Hn' & Hnn & Hnn' & HPd & Hd & Hk & Hs & Ha & Hm & Hc).
  assert (HL : length (gstr t) = length (adims ++ dims)) by (now rewrite Hs, !app_length, !strides_of_length).
  assert (HR : forall ix, in_range ix (adims ++ dims) -> exists ia ic, ix = ia ++ ic /\ in_range ia adims /\ in_range ic dims /\ dot (gstr t) ix = P * flat ia adims + flat ic dims /\
             0 <= flat ia adims < prod adims /\ 0 <= flat ic dims < prod dims).
  { intros ix Hr. destruct (in_range_split _ _ _ Hr) as (ia & ic & -> & Hia & Hic). exists ia, ic. split; [reflexivity|split; [exact Hia|split; [exact Hic|]]].
    split; [now apply (padded_dot h t adims dims P)|]. split; now apply flat_range. }
  split; [exact Hd|split; [exact Hk|split; [exact HL|split; [now apply Forall_app|split; [exact Hc|split]]]]].
  - intros ix jx Hi Hj. cbn in Hi, Hj. rewrite Hd in Hi, Hj. destruct Hc as (b & Hb & _).
    pose proof (in_range_length _ _ Hi) as L1. pose proof (in_range_length _ _ Hj) as L2. rewrite (vaddr_g t b ix Hb), (vaddr_g t b jx Hb) by congruence.
    destruct (HR ix Hi) as (ia & ic & -> & Ha1 & Hc1 & -> & B1 & B2), (HR jx Hj) as (ja & jc & -> & Ha2 & Hc2 & -> & B3 & B4). intro E. injection E as E.
    assert (flat ia adims = flat ja adims) by nia. assert (flat ic dims = flat jc dims) by nia. f_equal; [now apply (flat_inj _ _ adims)|now apply (flat_inj _ _ dims)].
  - intros ix Hr. destruct (HR ix Hr) as (ia & ic & _ & _ & _ & -> & B1 & B2). rewrite Hm. nia.
Qed.
Lemma flat_surj dims a : nonneg dims -> 0 <= a < prod dims -> exists ix, in_range ix dims /\ flat ix dims = a.
Proof.
  intros Hn Ha. pose proof (flat_all_indices dims Hn) as E. assert (Hi : In a (zrange (prod dims))) by (now apply in_zrange). rewrite <- E in Hi. apply in_map_iff in Hi.
  destruct Hi as (ix & Ef & Hx). exists ix. split; [now apply in_all_indices|exact Ef].
Qed.

(* ---- adding an array ---- *)
Lemma adds_live (h : heapV) t h' : adds_array h t h' -> forall c, In c (hlive h) -> In c (hlive h').
Proof. intros (b & _ & _ & _ & E & _) c Hc. rewrite E. now right. Qed.
Lemma adds_has (h : heapV) t h' x n : adds_array h t h' -> has_cells h x n -> has_cells h' x n.
Proof. intros HA Hc. pose proof (adds_live h t h' HA) as HI. destruct HA as (b & _ & _ & N & _ & _ & E). now apply (has_mono h h' x n b). Qed.
Lemma adds_plain (h : heapV) t h' x dims : adds_array h t h' -> plain h x dims -> plain h' x dims.
Proof. intros HA (H1 & H2 & H3 & H4 & H5 & H6 & H7 & H8). repeat (split; [assumption|]). now apply (adds_has h t h'). Qed.
Lemma adds_mem (h : heapV) t h' x n b a : adds_array h t h' -> has_cells h x n -> garr x = Some b -> hmem h' b a = hmem h b a.
Proof. intros (c & _ & _ & N & _ & _ & E) (b' & Hb & Hl & _) Hx. assert (b' = b) by congruence. subst b'. apply E. intros ->. contradiction. Qed.
Lemma adds_gel (h : heapV) t h' x dims ix : adds_array h t h' -> laid h x dims -> in_range ix dims -> gel h' x ix = gel h x ix.
Proof.
  intros HA HL Hr. destruct (laid_len h x dims ix HL Hr) as (L & _). destruct HL as (_ & _ & _ & _ & Hc & _). pose proof Hc as (b & Hb & _).
  rewrite !(gel_eq _ x b ix Hb L). now apply (adds_mem h t h' x (gmemsize x)).
Qed.
Lemma paint_adds (h : heapV) t h1 h2 b n g : adds_array h t h1 -> garr t = Some b -> painted b 0 n g h1 h2 ->
  (forall i, 0 <= i < n -> hmem h1 b (0 + i) <> None) -> adds_array h t h2.
Proof.
  intros (b' & Hb & Hv & N & El & Hok & E) Ht P Hc. assert (b' = b) by congruence. subst b'. exists b.
  split; [exact Hb|split; [exact Hv|split; [exact N|split; [now rewrite (proj1 P)|split; [exact (painted_ok b 0 n g h1 h2 Hok P Hc)|]]]]].
  intros b' a Hn. rewrite (painted_block b 0 n g h1 h2 b' a P Hn). now apply E.
Qed.
Lemma new_plain (j : V) dims h : dims <> [] -> nonneg dims -> heap_ok h -> exists t h' b, gnew j dims h = Ok (t, h') /\ plain h' t dims /\ adds_array h t h' /\
  garr t = Some b /\ gisview t = false /\ (forall i, 0 <= i < prod dims -> hmem h' b i = Some j).
Proof.
  intros Hd Hn Hok. unfold gnew. rewrite (strides_ok dims Hd). cbn [bind]. destruct (new_ok j (prod dims) h (prod_nonneg dims Hn) Hok) as (h' & E & Hok' & El & Nf & Eo & Ec). rewrite E. cbn [bind].
  eexists _, h', (hnext h). split; [reflexivity|]. cbn [garr]. split; [|split; [|split; [reflexivity|split; [reflexivity|]]]].
  - repeat (split; [easy || reflexivity|]). exists (hnext h). split; [reflexivity|split; [rewrite El; now left|]]. intro a. rewrite Ec.
    destruct (Z.leb_spec 0 a), (Z.ltb_spec a (prod dims)); cbn; split; try easy; lia.
  - exists (hnext h). split; [reflexivity|split; [reflexivity|split; [exact Nf|split; [exact El|split; [exact Hok'|exact Eo]]]]].
  - intros i Hi. rewrite Ec. destruct (Z.leb_spec 0 i), (Z.ltb_spec i (prod dims)); try lia. reflexivity.
Qed.
Lemma new_array_ok (j : V) adims dims h : adims <> [] -> dims <> [] -> nonneg adims -> nonneg dims -> heap_ok h ->
  exists t h' b P, gnew_array j adims dims h = Ok (t, h') /\ padded h' t adims dims P /\ adds_array h t h' /\ P = roundup (prod dims) 32 /\
  garr t = Some b /\ gisview t = false /\ (forall i, 0 <= i < gmemsize t -> hmem h' b i = Some j).
Proof.
  intros Ha Hd Hna Hn Hok. unfold gnew_array. rewrite (strides_pad_ok adims dims Ha Hd). cbn [bind].
  pose proof (roundup_spec (prod dims) 32 ltac:(lia) (prod_nonneg dims Hn)) as (R1 & _ & _ & R2). pose proof (prod_nonneg adims Hna) as R3.
  destruct (new_ok j (roundup (prod dims) 32 * prod adims) h ltac:(nia) Hok) as (h' & E & Hok' & El & Nf & Eo & Ec). rewrite E. cbn [bind].
  eexists _, h', (hnext h), _. split; [reflexivity|]. cbn [garr]. split; [|split; [|split; [reflexivity|split; [reflexivity|split; [reflexivity|]]]]].
  - split; [exact Ha|split; [exact Hd|split; [exact Hna|split; [exact Hn|split; [exact R1|split; [reflexivity|split]]]]]]; [cbn; now rewrite app_length|].
    split; [reflexivity|split; [cbn; apply asize_prod|split; [reflexivity|]]]. exists (hnext h). split; [reflexivity|split; [rewrite El; now left|]]. intro a. rewrite Ec. cbn.
    destruct (Z.leb_spec 0 a), (Z.ltb_spec a (roundup (prod dims) 32 * prod adims)); cbn; split; try easy; lia.
  - exists (hnext h). split; [reflexivity|split; [reflexivity|split; [exact Nf|split; [exact El|split; [exact Hok'|exact Eo]]]]].
  - cbn. intros i Hi. rewrite Ec. destruct (Z.leb_spec 0 i), (Z.ltb_spec i (roundup (prod dims) 32 * prod adims)); try lia. reflexivity.
Qed.

(* ---- loops over an array ---- *)
Definition cellv (d : V) (h : heapV) (x : gtensor) (a : Z) : V :=
  match garr x with Some b => match hmem h b a with Some v => v | None => d end | None => d end.
Lemma rd_cellv d (h : heapV) x n a : has_cells h x n -> 0 <= a < n -> rd h x a = Ok (cellv d h x a).
Proof. intros Hc Ha. destruct (rd_cell h x n a Hc Ha) as (b & v & Hb & Hm & E). unfold cellv. now rewrite Hb, Hm. Qed.
Lemma plain_cellv d (h : heapV) x dims ix : plain h x dims -> in_range ix dims -> gel h x ix = Some (cellv d h x (flat ix dims)).
Proof.
  intros HP Hr. pose proof HP as (_ & _ & _ & _ & _ & _ & _ & Hc). destruct (rd_cell h x _ (flat ix dims) Hc (flat_range _ _ Hr)) as (b & v & Hb & Hm & _).
  rewrite (plain_gel h x dims b ix HP Hb Hr). unfold cellv. now rewrite Hb, Hm.
Qed.
Lemma loop_ok (h : heapV) t b o n N (g : Z -> V) (E : Z -> heapV -> res V) : 0 <= n -> 0 <= o -> o + n <= N -> has_cells h t N -> garr t = Some b ->
  (forall i h', 0 <= i < n -> painted b o i g h h' -> E i h' = Ok (g i)) ->
  exists h', forZ n (fun i h => do v <- E i h; wr t (o + i) v h) h = Ok h' /\ painted b o n g h h'.
Proof.
  intros Hn Ho HN Hc Hb HE. apply paint; [exact Hn|]. intros i h' Hi HP. rewrite (HE i h' Hi HP). cbn [bind]. apply wr_painted; try assumption; [lia| |reflexivity].
  destruct Hc as (b' & Hb' & _ & Hs). assert (b' = b) by congruence. subst b'. apply Hs. lia.
Qed.
Lemma cells_in (h : heapV) t b o n N : has_cells h t N -> garr t = Some b -> 0 <= o -> o + n <= N -> forall i, 0 <= i < n -> hmem h b (o + i) <> None.
Proof. intros (b' & Hb' & _ & Hs) Hb Ho HN i Hi. assert (b' = b) by congruence. subst b'. apply Hs. lia. Qed.
Lemma painted_plain (h h' : heapV) b o n g x dims : painted b o n g h h' -> (forall i, 0 <= i < n -> hmem h b (o + i) <> None) -> plain h x dims -> plain h' x dims.
Proof. intros HP Hc (H1 & H2 & H3 & H4 & H5 & H6 & H7 & H8). repeat (split; [assumption|]). now apply (painted_has b o n g h h'). Qed.
Lemma painted_gel (h h' : heapV) b g t dims ix : painted b 0 (prod dims) g h h' -> plain h' t dims -> garr t = Some b -> in_range ix dims -> gel h' t ix = Some (g (flat ix dims)).
Proof. intros HP Ht Hb Hr. rewrite (plain_gel h' t dims b ix Ht Hb Hr). apply (painted_in0 b (prod dims) g h h'); [exact HP|now apply flat_range]. Qed.
Lemma painted_only (h h' : heapV) b g t dims : painted b 0 (prod dims) g h h' -> plain h t dims -> garr t = Some b -> only_at h h' t (fun ix => in_range ix dims).
Proof.
  intros (E1 & E2 & E) HP Hb. split; [exact E1|split; [exact E2|]]. intros b' a N. rewrite E. destruct (Z.eqb_spec b' b); [|reflexivity].
  destruct (Z.leb_spec 0 a), (Z.ltb_spec a (0 + prod dims)); cbn; try reflexivity. subst b'. exfalso.
  destruct (flat_surj dims a (proj1 (proj2 HP)) ltac:(lia)) as (ix & Hr & Ef). apply (N ix Hr). destruct (plain_dot h t dims ix HP Hr) as (Ed & L). now rewrite (vaddr_g t b ix Hb L), Ed, Ef.
Qed.

(* ---- filled constructors ---- *)
Lemma fill_ok (h : heapV) t b n v : 0 <= n -> has_cells h t n -> garr t = Some b -> exists h', fill_arr t n v h = Ok h' /\ painted b 0 n (fun _ => v) h h'.
Proof.
  intros Hn Hc Hb. apply paint; [exact Hn|]. intros i h' Hi HP. apply wr_painted0; try assumption; [lia| |reflexivity].
  exact (cells_in h t b 0 n n Hc Hb ltac:(lia) ltac:(lia) i Hi).
Qed.
Lemma new_const_ok (j c : V) dims h : dims <> [] -> nonneg dims -> heap_ok h -> exists t h', gnew_const j c dims h = Ok (t, h') /\ plain h' t dims /\ adds_array h t h' /\
  forall ix, in_range ix dims -> gel h' t ix = Some c.
Proof.
  intros Hd Hn Hok. destruct (new_plain j dims h Hd Hn Hok) as (t & h1 & b & E & HP & HA & Hb & _ & _). pose proof HP as (_ & _ & _ & _ & _ & _ & Hm & Hc).
  unfold gnew_const. rewrite E. cbn [bind]. rewrite Hm. destruct (fill_ok h1 t b (prod dims) c (prod_nonneg _ Hn) Hc Hb) as (h2 & E2 & P2). rewrite E2. cbn [bind].
  pose proof (cells_in h1 t b 0 (prod dims) (prod dims) Hc Hb ltac:(lia) ltac:(lia)) as Hci. exists t, h2. split; [reflexivity|].
  pose proof (painted_plain _ _ _ _ _ _ _ _ P2 Hci HP) as HP2. split; [exact HP2|split; [exact (paint_adds h t h1 h2 b _ _ HA Hb P2 Hci)|]]. intros ix Hr. exact (painted_gel h1 h2 b _ t dims ix P2 HP2 Hb Hr).
Qed.
Lemma painted_padded (h h' : heapV) b o n g x adims dims P : painted b o n g h h' -> (forall i, 0 <= i < n -> hmem h b (o + i) <> None) -> padded h x adims dims P -> padded h' x adims dims P.
Proof. intros HP Hc (H1 & H2 & H3 & H4 & H5 & H6 & H7 & H8 & H9 & H10 & H11). repeat (split; [assumption|]). now apply (painted_has b o n g h h'). Qed.
Lemma new_array_const_ok (j c : V) adims dims h : adims <> [] -> dims <> [] -> nonneg adims -> nonneg dims -> heap_ok h ->
  exists t h' P, gnew_array_const j c adims dims h = Ok (t, h') /\ padded h' t adims dims P /\ adds_array h t h' /\
  forall ix, in_range ix (adims ++ dims) -> gel h' t ix = Some c.
Proof.
  intros Ha Hd Hna Hn Hok. destruct (new_array_ok j adims dims h Ha Hd Hna Hn Hok) as (t & h1 & b & P & E & HP & HA & EP & Hb & _ & _). pose proof HP as (_ & _ & _ & _ & HPd & _ & _ & _ & _ & Hm & Hc).
  unfold gnew_array_const. rewrite E. cbn [bind]. assert (H0 : 0 <= gmemsize t) by (rewrite Hm; pose proof (prod_nonneg dims Hn); pose proof (prod_nonneg adims Hna); nia).
  destruct (fill_ok h1 t b (gmemsize t) c H0 Hc Hb) as (h2 & E2 & P2). rewrite E2. cbn [bind].
  pose proof (cells_in h1 t b 0 (gmemsize t) (gmemsize t) Hc Hb ltac:(lia) ltac:(lia)) as Hci. exists t, h2, P. split; [reflexivity|].
  pose proof (painted_padded _ _ _ _ _ _ _ _ _ _ P2 Hci HP) as HP2. split; [exact HP2|split; [exact (paint_adds h t h1 h2 b _ _ HA Hb P2 Hci)|]].
  intros ix Hr. pose proof (padded_laid h2 t adims dims P HP2) as HL. destruct (laid_len _ _ _ _ HL Hr) as (L & _). rewrite (gel_eq h2 t b ix Hb L).
  apply (painted_in0 b (gmemsize t) (fun _ => c) h1 h2 _ P2). now apply HL.
Qed.
Lemma new_by_ok (j : V) g dims h : dims <> [] -> nonneg dims -> heap_ok h -> exists t h', gnew_by j g dims h = Ok (t, h') /\ plain h' t dims /\ adds_array h t h' /\
  forall ix, in_range ix dims -> gel h' t ix = Some (g (flat ix dims)).
Proof.
  intros Hd Hn Hok. destruct (new_plain j dims h Hd Hn Hok) as (t & h1 & b & E & HP & HA & Hb & _ & _). pose proof HP as (_ & _ & _ & _ & _ & Hm & _ & Hc).
  unfold gnew_by. rewrite E. cbn [bind]. rewrite Hm. pose proof (cells_in h1 t b 0 (prod dims) (prod dims) Hc Hb ltac:(lia) ltac:(lia)) as Hci.
  destruct (paint b 0 g h1 (prod dims) (fun i => wr t i (g i)) (prod_nonneg _ Hn)) as (h2 & E2 & P2).
  { intros i h' Hi P'. apply wr_painted0; try assumption; [lia|exact (Hci i Hi)|reflexivity]. }
  rewrite E2. cbn [bind]. exists t, h2. split; [reflexivity|].
  pose proof (painted_plain _ _ _ _ _ _ _ _ P2 Hci HP) as HP2. split; [exact HP2|split; [exact (paint_adds h t h1 h2 b _ _ HA Hb P2 Hci)|]]. intros ix Hr. exact (painted_gel h1 h2 b _ t dims ix P2 HP2 Hb Hr).
Qed.
(* only the first asize cells of an array of padded cells are filled *)
Lemma new_array_by_ok (j : V) g adims dims h : adims <> [] -> dims <> [] -> nonneg adims -> nonneg dims -> heap_ok h ->
  exists t h' P, gnew_array_by j g adims dims h = Ok (t, h') /\ padded h' t adims dims P /\ adds_array h t h' /\ P = roundup (prod dims) 32 /\
  forall ia ic, in_range ia adims -> in_range ic dims -> let a := P * flat ia adims + flat ic dims in
    gel h' t (ia ++ ic) = Some (if a <? prod (adims ++ dims) then g a else j).
Proof.
  intros Ha Hd Hna Hn Hok. destruct (new_array_ok j adims dims h Ha Hd Hna Hn Hok) as (t & h1 & b & P & E & HP & HA & EP & Hb & _ & Hj). pose proof HP as (_ & _ & _ & _ & HPd & _ & _ & _ & Has & Hm & Hc).
  unfold gnew_array_by. rewrite E. cbn [bind]. pose proof (prod_nonneg dims Hn) as Q1. pose proof (prod_nonneg adims Hna) as Q2.
  assert (H0 : 0 <= gasize t <= gmemsize t) by (rewrite Has, Hm, prod_app; nia).
  pose proof (cells_in h1 t b 0 (gasize t) (gmemsize t) Hc Hb ltac:(lia) ltac:(lia)) as Hci.
  destruct (paint b 0 g h1 (gasize t) (fun i => wr t i (g i)) (proj1 H0)) as (h2 & E2 & P2).
  { intros i h' Hi P'. apply wr_painted0; try assumption; [lia|exact (Hci i Hi)|reflexivity]. }
  rewrite E2. cbn [bind]. exists t, h2, P. split; [reflexivity|]. pose proof (painted_padded _ _ _ _ _ _ _ _ _ _ P2 Hci HP) as HP2.
  split; [exact HP2|split; [exact (paint_adds h t h1 h2 b _ _ HA Hb P2 Hci)|split; [exact EP|]]].
  intros ia ic Hia Hic. cbv zeta. pose proof (padded_laid h2 t adims dims P HP2) as HL. assert (Hr : in_range (ia ++ ic) (adims ++ dims)) by (now apply Forall2_app).
  destruct (laid_len _ _ _ _ HL Hr) as (L & _). rewrite (gel_eq h2 t b _ Hb L). pose proof (padded_dot h2 t adims dims P ia ic HP2 Hia Hic) as Ed.
  destruct HL as (_ & _ & _ & _ & _ & _ & Hin). specialize (Hin _ Hr). rewrite Ed in Hin |- *. rewrite <- Has.
  destruct (Z.ltb_spec (P * flat ia adims + flat ic dims) (gasize t)).
  - apply (painted_in0 b (gasize t) g h1 h2 _ P2). lia.
  - rewrite (painted_out b 0 (gasize t) g h1 h2 _ P2) by lia. now apply Hj.
Qed.
Lemma new_identity_ok (j z u : V) n h : 0 <= n -> heap_ok h -> exists t h', gnew_identity j z u [n; n] h = Ok (t, h') /\ plain h' t [n; n] /\ adds_array h t h' /\
  forall i k, 0 <= i < n -> 0 <= k < n -> gel h' t [i; k] = Some (if i =? k then u else z).
Proof.
  intros Hn0 Hok. assert (Hn : nonneg [n; n]) by (repeat constructor; assumption). destruct (new_plain j [n; n] h ltac:(easy) Hn Hok) as (t & h1 & b & E & HP & HA & Hb & _ & _). pose proof HP as (_ & _ & _ & _ & _ & _ & Hm & Hc).
  unfold gnew_identity. rewrite E. cbn [bind]. cbn [length assrt Z.of_nat]. change (Z.of_nat 2 =? 2) with true. cbn [assrt]. change (zget [n; n] 0) with (Ok n). change (zget [n; n] 1) with (Ok n). cbn [bind].
  rewrite !Z.eqb_refl. cbn [assrt]. rewrite Hm. destruct (fill_ok h1 t b (prod [n; n]) z (prod_nonneg _ Hn) Hc Hb) as (h2 & E2 & P2). rewrite E2. cbn [bind].
  pose proof (cells_in h1 t b 0 (prod [n; n]) (prod [n; n]) Hc Hb ltac:(lia) ltac:(lia)) as Hci.
  pose proof (painted_plain _ _ _ _ _ _ _ _ P2 Hci HP) as HP2. pose proof HP2 as (_ & _ & _ & _ & _ & _ & _ & Hc2).
  assert (Epr : prod [n; n] = n * n) by (cbv [prod fold_right]; ring).
  destruct (forZ_inv (fun i h' => hlive h' = hlive h2 /\ hnext h' = hnext h2 /\ forall b' a, hmem h' b' a = if (b' =? b) && (0 <=? a) && (a <? i * (n + 1)) && (Z.rem a (n + 1) =? 0) then Some u else hmem h2 b' a) n (fun i => wr t (i * (n + 1)) u) h2) as (h3 & E3 & I1 & I2 & I3).
  - exact Hn0.
  - split; [reflexivity|split; [reflexivity|]]. intros b' a. destruct (Z.eqb_spec b' b), (Z.leb_spec 0 a), (Z.ltb_spec a (0 * (n + 1))); cbn; try reflexivity; lia.
  - intros i h' Hi (J1 & J2 & J3). unfold wr, store. rewrite Hb, J3. destruct (Z.ltb_spec (i * (n + 1)) (i * (n + 1))); [lia|]. rewrite andb_false_r. cbn [andb].
    rewrite (painted_in0 b _ _ h1 h2 (i * (n + 1)) P2) by (rewrite Epr; nia). cbn. eexists. split; [reflexivity|]. split; [exact J1|split; [exact J2|]]. intros b' a. cbn. unfold upd. rewrite J3.
    destruct (Z.eqb_spec b' b); cbn [andb]; [|reflexivity]. destruct (Z.eqb_spec a (i * (n + 1))).
    + subst a. destruct (Z.leb_spec 0 (i * (n + 1))); [|nia]. destruct (Z.ltb_spec (i * (n + 1)) ((i + 1) * (n + 1))); [|nia]. rewrite Z.rem_mul by lia. reflexivity.
    + destruct (Z.leb_spec 0 a); cbn [andb]; [|reflexivity]. destruct (Z.ltb_spec a (i * (n + 1))), (Z.ltb_spec a ((i + 1) * (n + 1))); cbn [andb]; try reflexivity; [nia|].
      destruct (Z.eqb_spec (Z.rem a (n + 1)) 0) as [Hr|]; [|reflexivity]. exfalso. rewrite Z.rem_mod_nonneg in Hr by lia. pose proof (Z.div_mod a (n + 1) ltac:(lia)) as D. rewrite Hr in D.
      assert (a / (n + 1) = i) by nia. nia.
  - rewrite E3. cbn [bind]. exists t, h3. split; [reflexivity|].
    assert (Hce : forall b' a, hmem h3 b' a <> None <-> hmem h2 b' a <> None).
    { intros b' a. rewrite I3. destruct (Z.eqb_spec b' b), (Z.leb_spec 0 a), (Z.ltb_spec a (n * (n + 1))), (Z.eqb_spec (Z.rem a (n + 1)) 0); cbn; try tauto. subst b'. split; [intros _|easy].
      rewrite (painted_in0 b _ _ h1 h2 a P2); [easy|]. rewrite Epr. rewrite Z.rem_mod_nonneg in e0 by lia. pose proof (Z.div_mod a (n + 1) ltac:(lia)) as D. rewrite e0 in D.
      assert (a / (n + 1) < n) by nia. nia. }
    assert (HP3 : plain h3 t [n; n]).
    { destruct HP2 as (Q1 & Q2 & Q3 & Q4 & Q5 & Q6 & Q7 & (b' & R1 & R2 & R3)). repeat (split; [assumption|]). exists b'. split; [exact R1|split; [now rewrite I1|]]. intro a. now rewrite Hce. }
    split; [exact HP3|split].
    + destruct (paint_adds h t h1 h2 b _ _ HA Hb P2 Hci) as (b' & R1 & R2 & R3 & R4 & (O1 & O2 & O3 & O4) & R6). exists b'. split; [exact R1|split; [exact R2|split; [exact R3|split; [congruence|split]]]].
      * unfold heap_ok. rewrite I1, I2. repeat (split; [assumption|]). intros c a Hx. apply (O4 c a). now apply Hce.
      * intros c a Hx. rewrite I3. assert (b' = b) by congruence. subst b'. destruct (Z.eqb_spec c b); [easy|]. cbn. now apply R6.
    + intros i k Hi Hk. assert (Hr : in_range [i; k] [n; n]) by (repeat constructor; lia). rewrite (plain_gel h3 t [n; n] b _ HP3 Hb Hr).
      replace (flat [i; k] [n; n]) with (i * n + k) by (cbn [flat]; cbv [prod fold_right]; ring). rewrite I3, Z.eqb_refl. cbn [andb].
      destruct (Z.leb_spec 0 (i * n + k)); [|nia]. destruct (Z.ltb_spec (i * n + k) (n * (n + 1))); [|nia]. cbn [andb]. rewrite Z.rem_mod_nonneg by nia.
      rewrite (painted_in0 b _ _ h1 h2 (i * n + k) P2) by (rewrite Epr; nia).
      destruct (Z.eqb_spec i k) as [->|Hne].
      * replace (k * n + k) with (k * (n + 1)) by ring. now rewrite Z.mod_mul by lia.
      * destruct (Z.eqb_spec ((i * n + k) mod (n + 1)) 0) as [Hr0|]; [|reflexivity]. exfalso. pose proof (Z.div_mod (i * n + k) (n + 1) ltac:(lia)) as D. rewrite Hr0 in D.
        assert (exists q, k - i = q * (n + 1)) as (q & Hq) by (exists ((i * n + k) / (n + 1) - i); nia). assert (q = 0) by nia. nia.
Qed.
Lemma new_vec_ok (j : V) l h : heap_ok h -> exists t h', gnew_vec j l h = Ok (t, h') /\ plain h' t [Z.of_nat (length l)] /\ adds_array h t h' /\
  forall i v, nth_error l i = Some v -> gel h' t [Z.of_nat i] = Some v.
Proof.
  intro Hok. unfold gnew_vec. remember (Z.of_nat (length l)) as n eqn:Hnl. cbv zeta. destruct (new_ok j n h ltac:(lia) Hok) as (h1 & E & Hok' & El & Nf & Eo & Ec). rewrite E. cbn [bind].
  set (t := GT 1 0 [n] [1] n n (Some (hnext h)) false).
  assert (En : prod [n] = n) by (cbv [prod fold_right]; ring).
  assert (HP : plain h1 t [n]).
  { split; [easy|split; [repeat constructor; lia|split; [reflexivity|split; [reflexivity|split; [reflexivity|split; [cbn; now rewrite En|split; [cbn; now rewrite En|]]]]]]].
    exists (hnext h). split; [reflexivity|split; [rewrite El; now left|]]. intro a. rewrite Ec, En. destruct (Z.leb_spec 0 a), (Z.ltb_spec a n); cbn; split; try easy; lia. }
  assert (HA : adds_array h t h1).
  { exists (hnext h). split; [reflexivity|split; [reflexivity|split; [exact Nf|split; [exact El|split; [exact Hok'|exact Eo]]]]]. }
  pose proof HP as (_ & _ & _ & _ & _ & _ & _ & Hc). rewrite En in Hc. pose proof (cells_in h1 t (hnext h) 0 n n Hc eq_refl ltac:(lia) ltac:(lia)) as Hci.
  destruct (paint (hnext h) 0 (fun i => nth (Z.to_nat i) l j) h1 n (fun i h0 => do x <- zget l i; wr t i x h0) ltac:(lia)) as (h2 & E2 & P2).
  { intros i h' Hi P'. unfold zget, vget. destruct (Z.ltb_spec i 0); [lia|]. rewrite (nth_error_nth' l j) by lia. cbn [bind]. apply wr_painted0; [lia|assumption|reflexivity|exact (Hci i Hi)|reflexivity]. }
  rewrite E2. cbn [bind]. exists t, h2. split; [reflexivity|]. pose proof (painted_plain _ _ _ _ _ _ _ _ P2 Hci HP) as HP2. split; [exact HP2|split; [exact (paint_adds h t h1 h2 _ _ _ HA eq_refl P2 Hci)|]].
  intros i v Hv. assert (Hi : (i < length l)%nat) by (apply nth_error_Some; congruence). assert (Hr : in_range [Z.of_nat i] [n]) by (repeat constructor; lia).
  rewrite <- En in P2. rewrite (painted_gel h1 h2 (hnext h) _ t [n] _ P2 HP2 eq_refl Hr). cbn [flat]. change (prod []) with 1. rewrite Z.mul_1_r, Z.add_0_r, Nat2Z.id. f_equal. now apply nth_error_nth.
Qed.
End Shapes.
