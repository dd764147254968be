(* Proofs_RConv.v -- loops over the parts of a view that add to it. *)
From Verif Require Import Base BaseFacts Model_Index Model_View Model_Tensor Model_Ops Model_RView Model_Einsum Model_Convolve Model_RConv Spec_Index Spec_View Spec_Tensor Spec_RView Spec_Convolve Spec_Convolve2D Spec_RConv
  Proofs_Axes Proofs_Index Proofs_View Proofs_Tensor Proofs_Tensor2 Proofs_Tensor3 Proofs_Ops2 Proofs_Ops3 Proofs_RView Proofs_RView2 Proofs_RView3 Proofs_RView5 Proofs_RView6.
Local Open Scope Z_scope.

Section S.
Context {R : cring}.
Notation memR := (mem (car R)).
Implicit Types m : memR.
Add Ring RR : (cth R).

Lemma gains_none v m : gains v (fun _ => c0) m m.
Proof. split; [|apply untouched_same]. intros ix u _ E. rewrite E. f_equal. ring. Qed.
Lemma gains_readable v g m m' : readable m v -> gains v g m m' -> readable m' v.
Proof. intros Rv [A _] ix Hix. rewrite (A ix (elem0 m v ix) Hix (readable_elem m v ix Rv Hix)). congruence. Qed.
Lemma gains_then v g h m m1 m2 : gains v g m m1 -> gains v h m1 m2 -> gains v (fun ix => cadd (g ix) (h ix)) m m2.
Proof.
  intros [A U] [B W]. split; [|eapply untouched_trans; eassumption]. intros ix u Hix E. rewrite (B ix _ Hix (A ix u Hix E)). f_equal. ring.
Qed.
(* a loop that adds to the same view again and again *)
Lemma gains_fold {T} v (step : T -> memR -> res memR) (g : T -> list Z -> R) l m0 : forall m, readable m v -> untouched m0 m v ->
  (forall t m1, In t l -> readable m1 v -> untouched m0 m1 v -> exists m2, step t m1 = Ok m2 /\ gains v (g t) m1 m2) ->
  exists m', foldM step l m = Ok m' /\ gains v (fun ix => rsum (map (fun t => g t ix) l)) m m'.
Proof.
  induction l as [|t l IH]; intros m Rv U H.
  - exists m. split; [reflexivity|apply gains_none].
  - destruct (H t m (or_introl eq_refl) Rv U) as (m1 & E1 & G1). destruct (IH m1) as (m2 & E2 & G2).
    + eapply gains_readable; eassumption.
    + eapply untouched_trans; [exact U|apply G1].
    + intros t' m' Ht. apply H. now right.
    + exists m2. split; [cbn [foldM]; now rewrite E1|]. eapply gains_ext; [|exact (gains_then _ _ _ _ _ _ G1 G2)]. intros ix _. cbn [map]. now rewrite rsum_cons.
Qed.
(* a loop over parts of a view that together make it up *)
Lemma parts_fold {T} v (part : T -> view) (f : T -> list Z -> list Z) (step : T -> memR -> res memR) (G : list Z -> R) m0 (l : list T) :
  distinct_cells v ->
  (forall t, In t l -> shows (part t) v (f t)) ->
  (forall t u jx kx, In t l -> In u l -> in_range jx (vdims (part t)) -> in_range kx (vdims (part u)) -> f t jx = f u kx -> t = u) ->
  NoDup l ->
  (forall t m1, In t l -> untouched m0 m1 v -> readable m1 (part t) -> exists m2, step t m1 = Ok m2 /\ gains (part t) (fun jx => G (f t jx)) m1 m2) ->
  forall m, readable m v -> untouched m0 m v ->
  exists m', foldM step l m = Ok m' /\ untouched m0 m' v /\ readable m' v /\ untouched m m' v /\
    (forall t jx u, In t l -> in_range jx (vdims (part t)) -> elem m v (f t jx) = Some u -> elem m' v (f t jx) = Some (cadd u (G (f t jx)))) /\
    (forall ix, in_range ix (vdims v) -> (forall t jx, In t l -> in_range jx (vdims (part t)) -> f t jx <> ix) -> elem m' v ix = elem m v ix).
Proof.
  intros Hd. induction l as [|t l IH]; intros Sh Inj Nd H m Rv U.
  - exists m. repeat split; try assumption; try apply untouched_same. intros ? ? ? [].
  - inversion Nd as [|? ? Nt Nl]; subst. pose proof (Sh t (or_introl eq_refl)) as St.
    destruct (H t m (or_introl eq_refl) U (shows_readable m _ v _ St Rv)) as (m1 & E1 & G1).
    assert (U1 : untouched m m1 v) by (eapply sub_untouched; [exact St|apply G1]).
    assert (Keep : forall ix, in_range ix (vdims v) -> (forall jx, in_range jx (vdims (part t)) -> f t jx <> ix) -> elem m1 v ix = elem m v ix).
    { intros ix Hix Hn. unfold elem. destruct (vaddr v ix) as [[b a]| |] eqn:Ea; try reflexivity. apply (proj2 G1). intros jx Hjx Ej. destruct (St jx Hjx) as [I Ev].
      apply (Hn jx Hjx). apply Hd; try assumption. congruence. }
    assert (New : forall jx u, in_range jx (vdims (part t)) -> elem m v (f t jx) = Some u -> elem m1 v (f t jx) = Some (cadd u (G (f t jx)))).
    { intros jx u Hjx Eu. rewrite <- (window_elem m1 _ v _ St jx Hjx). apply (proj1 G1); [assumption|]. now rewrite (window_elem m _ v _ St jx Hjx). }
    assert (R1 : readable m1 v).
    { intros ix Hix. unfold elem. destruct (vaddr v ix) as [[b a]| |] eqn:Ea; [|exfalso; apply (Rv ix Hix); unfold elem; now rewrite Ea..].
      assert (D : (exists jx, in_range jx (vdims (part t)) /\ f t jx = ix) \/ forall jx, in_range jx (vdims (part t)) -> f t jx <> ix).
      { destruct (in_dec (list_eq_dec Z.eq_dec) ix (map (f t) (all_indices (vdims (part t))))) as [I|I].
        - left. apply in_map_iff in I as (jx & E & I). exists jx. split; [now apply in_all_indices|assumption].
        - right. intros jx Hjx E. apply I. apply in_map_iff. exists jx. split; [assumption|now apply in_all_indices]. }
      destruct D as [(jx & Hjx & <-)|D].
      - pose proof (New jx (elem0 m v (f t jx)) Hjx (readable_elem m v _ Rv Hix)) as N. unfold elem in N. rewrite Ea in N. congruence.
      - pose proof (Keep ix Hix D) as K. unfold elem in K. rewrite Ea in K. rewrite K. specialize (Rv ix Hix). unfold elem in Rv. now rewrite Ea in Rv. }
    destruct (IH) with (m := m1) as (m2 & E2 & U02 & R2 & U2 & V2 & K2).
    + intros; apply Sh; now right.
    + intros t0 u jx kx Ht Hu. apply Inj; now right.
    + assumption.
    + intros t0 m3 Ht. apply H. now right.
    + assumption.
    + eapply untouched_trans; eassumption.
    + exists m2. split; [cbn [foldM]; now rewrite E1|]. split; [assumption|]. split; [assumption|]. split; [eapply untouched_trans; eassumption|]. split.
      * intros t0 jx u [<-|Ht] Hjx Eu.
        -- rewrite K2; [now apply New|apply (St jx Hjx)|]. intros t0 kx Ht Hkx E. assert (t = t0) by (symmetry; eapply Inj; [right; exact Ht|left; reflexivity|exact Hkx|exact Hjx|exact E]). subst. contradiction.
        -- apply V2; try assumption. rewrite Keep; [assumption|apply (Sh t0 (or_intror Ht) jx Hjx)|]. intros kx Hkx E. assert (t = t0) by (eapply Inj; [left; reflexivity|right; exact Ht|exact Hkx|exact Hjx|exact E]). subst. contradiction.
      * intros ix Hix Hn. rewrite K2; [apply Keep; [assumption|]|assumption|]; intros; apply Hn; auto; now (left + right).
Qed.
Lemma parts_gain {T} v (part : T -> view) (f : T -> list Z -> list Z) (step : T -> memR -> res memR) (G : list Z -> R) m (l : list T) :
  distinct_cells v -> readable m v ->
  (forall t, In t l -> shows (part t) v (f t)) ->
  (forall t u jx kx, In t l -> In u l -> in_range jx (vdims (part t)) -> in_range kx (vdims (part u)) -> f t jx = f u kx -> t = u) ->
  NoDup l ->
  (forall ix, in_range ix (vdims v) -> exists t jx, In t l /\ in_range jx (vdims (part t)) /\ f t jx = ix) ->
  (forall t m1, In t l -> untouched m m1 v -> readable m1 (part t) -> exists m2, step t m1 = Ok m2 /\ gains (part t) (fun jx => G (f t jx)) m1 m2) ->
  exists m', foldM step l m = Ok m' /\ gains v G m m'.
Proof.
  intros Hd Rv Sh Inj Nd Cov H. destruct (parts_fold v part f step G m l Hd Sh Inj Nd H m Rv (untouched_same m v)) as (m' & E & _ & _ & U & V & _).
  exists m'. split; [exact E|]. split; [|exact U]. intros ix u Hix Eu. destruct (Cov ix Hix) as (t & jx & Ht & Hjx & <-). now apply V.
Qed.

(* ---- the slices of a view along its first axis ---- *)
Lemma slice0_shows v n ds i : vwf v -> vdims v = n :: ds -> 0 <= i < n ->
  vwf (rvN_slice0 v i) /\ vdims (rvN_slice0 v i) = ds /\ shows (rvN_slice0 v i) v (cons i).
Proof.
  intros [L N] D Hi. destruct v as [b o vd vs]. cbn [vdims vstr] in *. subst vd. destruct vs as [|s vs]; [discriminate|]. unfold rvN_slice0, sd. cbn [vblk voff vdims vstr tl nth].
  inversion N; subst. split; [split; [cbn in L |- *; lia|assumption]|]. split; [reflexivity|]. intros ix Hix. cbn [vdims] in *. split; [now constructor|].
  assert (Li : length ix = length vs) by (apply in_range_length in Hix; cbn in L; lia).
  rewrite !vaddr_ok; cbn [vstr voff vblk length]; try lia. cbn [dot]. do 2 f_equal. lia.
Qed.
Lemma slices_gain v n ds (step : Z -> memR -> res memR) (G : list Z -> R) m : vwf v -> vdims v = n :: ds -> distinct_cells v -> readable m v ->
  (forall i m1, 0 <= i < n -> untouched m m1 v -> readable m1 (rvN_slice0 v i) -> exists m2, step i m1 = Ok m2 /\ gains (rvN_slice0 v i) (fun jx => G (i :: jx)) m1 m2) ->
  exists m', forZ n step m = Ok m' /\ gains v G m m'.
Proof.
  intros W D Hd Rv H. unfold forZ. apply (parts_gain v (rvN_slice0 v) cons step G m (zrange n)); try assumption.
  - intros i Hi. apply in_zrange in Hi. now apply (slice0_shows v n ds i).
  - intros i j jx kx _ _ _ _ E. congruence.
  - apply zrange_nodup.
  - intros ix Hix. rewrite D in Hix. inversion Hix as [|i ? jx ? Hi Hj]; subst. exists i, jx. split; [now apply in_zrange|]. destruct (slice0_shows v n ds i W D Hi) as (_ & -> & _). now split.
  - intros i m1 Hi. apply H. now apply in_zrange in Hi.
Qed.
(* a part of r, parts of x and w: still three separate arrays, in a memory where only r has changed *)
Lemma part_operands r x w m m1 RR XX WW fr fx fw : operands r [x; w] m -> untouched m m1 r -> readable m1 RR ->
  shows RR r fr -> (forall ix jx, in_range ix (vdims RR) -> in_range jx (vdims RR) -> fr ix = fr jx -> ix = jx) -> vwf RR ->
  shows XX x fx -> vwf XX -> shows WW w fw -> vwf WW ->
  operands RR [WW; XX] m1 /\ (forall ix, in_range ix (vdims XX) -> elem0 m1 XX ix = elem0 m x (fx ix)) /\ (forall ix, in_range ix (vdims WW) -> elem0 m1 WW ix = elem0 m w (fw ix)).
Proof.
  intros (Wr & Hd & Rr & F) U R1 Sr Ir WR Sx WX Sw WW'. inversion F as [|? ? (Wx & Rx & Bx) F']; subst; inversion F' as [|? ? (Wy & Ry & By) _]; subst.
  pose proof (keep_readable r x m m1 Bx U Rx) as Rx1. pose proof (keep_readable r w m m1 By U Ry) as Ry1. split; [|split].
  - split; [assumption|]. split; [eapply shows_distinct; eassumption|]. split; [assumption|]. constructor; [|constructor; [|constructor]].
    + split; [assumption|]. split; [eapply shows_readable; eassumption|]. eapply shows_disjoint_l; [exact Sr|]. eapply shows_disjoint_r; eassumption.
    + split; [assumption|]. split; [eapply shows_readable; eassumption|]. eapply shows_disjoint_l; [exact Sr|]. eapply shows_disjoint_r; eassumption.
  - intros ix Hix. rewrite (shows_elem0 m1 XX x fx ix Sx Hix). apply (keep_elem0 r x m m1); try assumption. now apply (Sx ix Hix).
  - intros ix Hix. rewrite (shows_elem0 m1 WW w fw ix Sw Hix). apply (keep_elem0 r w m m1); try assumption. now apply (Sw ix Hix).
Qed.
Lemma shows_trans u v w f g : shows u v f -> shows v w g -> shows u w (fun ix => g (f ix)).
Proof. intros A B ix Hix. destruct (A ix Hix) as [I E]. destruct (B (f ix) I) as [J F]. split; [assumption|congruence]. Qed.
End S.
