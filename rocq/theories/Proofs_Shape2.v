(* Proofs_Shape2.v -- which layouts are solid, and how much memory they need *)
From Verif Require Import Base BaseFacts Model_Index Model_View Model_Tensor Model_Groups Model_Shape Spec_Index Proofs_Axes Proofs_Index Spec_Shape Proofs_Shape.
Local Open Scope Z_scope.

Lemma solid_perm s dims : length s = length dims -> nonneg dims -> solid s dims -> Permutation (map (dot s) (all_indices dims)) (zrange (prod dims)).
Proof.
  intros L N (H1 & H2 & H3). apply NoDup_Permutation.
  - assert (G : forall l, NoDup l -> (forall x, In x l -> In x (all_indices dims)) -> NoDup (map (dot s) l)).
    { induction l as [|a l IH]; intros D K; [constructor|]. inversion D as [|? ? D1 D2]; subst. cbn. constructor.
      - intro I. apply in_map_iff in I. destruct I as (b & E & I). rewrite !dot_place in E.
        assert (b = a) by (apply H2; [apply in_all_indices, K; now right|apply in_all_indices, K; now left|exact E]). now subst.
      - apply IH; [exact D2|]. intros x I. apply K. now right. }
    apply G; [apply all_indices_nodup|auto].
  - apply zrange_nodup.
  - intro a. rewrite in_map_iff, in_zrange. split.
    + intros (ix & <- & I). rewrite dot_place. apply H1. now apply in_all_indices.
    + intro R. destruct (H3 a R) as (ix & I & E). exists ix. split; [now rewrite dot_place|now apply in_all_indices].
Qed.
Lemma nodup_flat_map_inj {A B} (f : A -> list B) l x y z : NoDup (flat_map f l) -> In x l -> In y l -> In z (f x) -> In z (f y) -> x = y.
Proof.
  induction l as [|a l IH]; cbn; intros D Ix Iy Zx Zy; [contradiction|].
  assert (K : forall w, In w (f a) -> ~ In w (flat_map f l)).
  { clear -D. induction (f a) as [|b m IHm]; cbn in *; [tauto|]. inversion D as [|? ? D1 D2]; subst. intros w [<-|I].
    - intro Q. apply D1. apply in_or_app. now right.
    - now apply IHm. }
  assert (D2 : NoDup (flat_map f l)).
  { clear -D. induction (f a) as [|b m IHm]; cbn in *; [exact D|]. inversion D; subst; auto. }
  destruct Ix as [<-|Ix], Iy as [<-|Iy]; auto.
  - exfalso. apply (K z Zx). apply in_flat_map. eauto.
  - exfalso. apply (K z Zy). apply in_flat_map. eauto.
Qed.

Lemma addrs_in_cons d (s : ZO) ax a : In a (addrs (M:=ZO) ((d, s) :: ax)) <-> exists i b, 0 <= i < d /\ In b (addrs (M:=ZO) ax) /\ a = i * s + b.
Proof.
  cbn [addrs]. rewrite in_flat_map. split.
  - intros (i & I & H). apply in_zrange in I. apply in_map_iff in H. destruct H as (b & <- & H). exists i, b. auto.
  - intros (i & b & I & H & ->). exists i. split; [now apply in_zrange|]. apply in_map_iff. exists b. auto.
Qed.
Lemma addrs_zero ax : Forall (fun p : Z * Z => 0 < fst p) ax -> In 0 (addrs (M:=ZO) ax).
Proof.
  induction 1 as [|[d s] ax Hd H IH]; [now left|]. apply addrs_in_cons. exists 0, 0. cbn in Hd. repeat split; auto; lia.
Qed.
(* every stride of an axis with at least two positions is an address *)
Lemma addrs_stride ax d s : Forall (fun p : Z * Z => 2 <= fst p) ax -> In (d, s) ax -> In s (addrs (M:=ZO) ax).
Proof.
  induction 1 as [|[d0 s0] ax Hd H IH]; [contradiction|]. cbn in Hd. intros [E|I].
  - injection E as -> ->. apply addrs_in_cons. exists 1, 0. repeat split; try lia. apply addrs_zero. eapply Forall_impl; [|exact H]. cbn. intros; lia.
  - apply addrs_in_cons. exists 0, s. repeat split; try lia; auto.
Qed.
(* a non-zero address is at least some stride *)
Lemma addrs_min ax a : Forall (fun p : Z * Z => 0 < snd p) ax -> In a (addrs (M:=ZO) ax) -> 0 <= a /\ (a <> 0 -> exists d s, In (d, s) ax /\ s <= a).
Proof.
  intro H; revert a. induction H as [|[d s] ax Hs H IH]; intros a I.
  - destruct I as [<-|[]]. cbn. split; [lia|]. intro N. exfalso. apply N. reflexivity.
  - apply addrs_in_cons in I. destruct I as (i & b & Hi & Ib & ->). cbn in Hs. destruct (IH b Ib) as (B0 & B1). split; [nia|]. intro N.
    destruct (Z.eq_dec i 0) as [->|Ni].
    + destruct B1 as (d' & s' & I' & L); [lia|]. exists d', s'. split; [now right|lia].
    + exists d, s. split; [now left|]. nia.
Qed.

Lemma remaining_in dims v d s : In (d, s) (remaining dims v) -> In s v.
Proof.
  revert v; induction dims as [|d0 ds IH]; intros [|x v]; cbn; try contradiction.
  destruct (0 <? x); [intros [E|I]; [injection E as -> ->; now left|right; now apply IH]|intro I; right; now apply IH].
Qed.
Lemma find_take_in t v dims : length v = length dims -> In t v -> exists v' d, find_take t v dims = Some (v', d).
Proof.
  revert dims; induction v as [|x v IH]; intros [|d ds] L I; try discriminate; [contradiction|]. injection L as L. cbn [find_take].
  destruct (x =? t) eqn:E; [eauto|]. destruct I as [->|I]; [rewrite Z.eqb_refl in E; discriminate|].
  destruct (IH ds L I) as (v' & d' & ->). eauto.
Qed.
Lemma chain_app ax : forall t ax2, chain t (ax ++ ax2) <-> chain t ax /\ chain (t * fold_right Z.mul 1 (map fst ax)) ax2.
Proof.
  induction ax as [|[d s] ax IH]; intros t ax2; cbn.
  - rewrite Z.mul_1_r. tauto.
  - rewrite IH. rewrite Z.mul_assoc. tauto.
Qed.
Lemma prod_app_fst (a b : list (Z * Z)) : fold_right Z.mul 1 (map fst (a ++ b)) = fold_right Z.mul 1 (map fst a) * fold_right Z.mul 1 (map fst b).
Proof. induction a as [|x a IH]; cbn [app map fold_right]; [lia|]. rewrite IH. ring. Qed.
Lemma prod_ge2 (a : list (Z * Z)) : Forall (fun p => 2 <= fst p) a -> 1 <= fold_right Z.mul 1 (map fst a) /\ (a <> [] -> 2 <= fold_right Z.mul 1 (map fst a)).
Proof. induction 1 as [|x a Hx H IH]; cbn; [split; [lia|contradiction]|]. split; [nia|]. intros _. nia. Qed.

Lemma map_mul_1 (l : list Z) : map (Z.mul 1) l = l.
Proof. induction l as [|a l IH]; cbn [map]; [reflexivity|]. now rewrite IH, Z.mul_1_l. Qed.
Section Complete.
Variables s dims : list Z.
Hypothesis (L : length s = length dims) (Hs : positive s) (Hd : Forall (fun d => 2 <= d) dims) (HS : solid s dims).
Lemma complete_loop : forall n t v taken, length v = length dims -> npos v = n ->
  Permutation (combine dims s) (taken ++ remaining dims v) -> chain 1 taken -> t = fold_right Z.mul 1 (map fst taken) ->
  contig_loop n t v dims = true.
Proof.
  assert (Nn : nonneg dims) by (eapply Forall_impl; [|exact Hd]; cbn; intros; lia).
  induction n as [|n IH]; intros t v taken Lv Nv P C ->; [reflexivity|]. cbn [contig_loop].
  assert (F1 : Forall (fun p : Z * Z => 2 <= fst p) (taken ++ remaining dims v)).
  { rewrite <- P. apply Forall_forall. intros [a b] I. apply in_combine_l in I. cbn. rewrite Forall_forall in Hd. now apply Hd. }
  assert (F2 : Forall (fun p : Z * Z => 0 < snd p) (taken ++ remaining dims v)).
  { rewrite <- P. apply Forall_forall. intros [a b] I. apply in_combine_r in I. cbn. unfold positive in Hs. rewrite Forall_forall in Hs. now apply Hs. }
  apply Forall_app in F1. destruct F1 as (F1a & F1b). apply Forall_app in F2. destruct F2 as (F2a & F2b).
  set (t := fold_right Z.mul 1 (map fst taken)) in *.
  destruct (prod_ge2 _ F1a) as (T1 & _). fold t in T1.
  assert (Ne : remaining dims v <> []). { intro E. pose proof (npos_remaining v dims Lv) as Q. rewrite E, Nv in Q. discriminate. }
  destruct (prod_ge2 _ F1b) as (_ & T2). specialize (T2 Ne).
  assert (PE : prod dims = t * fold_right Z.mul 1 (map fst (remaining dims v))).
  { rewrite <- (prod_perm_fst _ dims s L P). now rewrite prod_app_fst. }
  pose proof (solid_perm s dims L Nn HS) as SP. rewrite <- addrs_axes in SP by assumption. unfold axes in SP.
  rewrite (addrs_perm ZO _ _ P) in SP. rewrite (addrs_app ZO) in SP.
  assert (TK : Permutation (addrs (M:=ZO) taken) (zrange t)).
  { rewrite (chain_addrs taken 1); [|eapply Forall_impl; [|exact F1a]; cbn; intros; lia|exact C].
    rewrite map_mul_1. reflexivity. }
  assert (It : In t v).
  { assert (I : In t (flat_map (fun a => map (@oadd ZO a) (addrs (M:=ZO) (remaining dims v))) (addrs (M:=ZO) taken))).
    { eapply Permutation_in; [symmetry; exact SP|]. apply in_zrange. rewrite PE. nia. }
    apply in_flat_map in I. destruct I as (a & Ia & I). apply in_map_iff in I. destruct I as (b & Eb & Ib). change (a + b = t) in Eb. change (oc ZO) with Z in *.
    pose proof Ia as Ra. eapply Permutation_in in Ra; [|exact TK]. apply in_zrange in Ra.
    destruct (addrs_min _ _ F2b Ib) as (B0 & B1). destruct B1 as (d & x & Ix & Lx); [lia|].
    assert (0 < x). { rewrite Forall_forall in F2b. apply (F2b _ Ix). }
    destruct (Z.eq_dec x t) as [->|Nx]; [eapply remaining_in; exact Ix|]. exfalso.
    assert (D : NoDup (flat_map (fun a => map (@oadd ZO a) (addrs (M:=ZO) (remaining dims v))) (addrs (M:=ZO) taken))).
    { eapply Permutation_NoDup; [symmetry; exact SP|apply zrange_nodup]. }
    assert (E : x = 0); [|lia].
    eapply (nodup_flat_map_inj _ _ x 0 x D).
    - eapply Permutation_in; [symmetry; exact TK|]. apply in_zrange. lia.
    - eapply Permutation_in; [symmetry; exact TK|]. apply in_zrange. lia.
    - apply in_map_iff. exists 0. split; [cbn; lia|]. apply addrs_zero. eapply Forall_impl; [|exact F1b]. cbn. intros; lia.
    - apply in_map_iff. exists x. split; [cbn; lia|]. eapply addrs_stride; [exact F1b|exact Ix]. }
  destruct (find_take_in t v dims Lv It) as (v' & d & E). rewrite E.
  destruct (find_take_ok t v dims v' d ltac:(lia) Lv E) as (P' & L' & N' & _).
  apply (IH _ v' (taken ++ [(d, t)])); auto; try lia.
  - rewrite P, P', <- app_assoc. reflexivity.
  - apply chain_app. split; [exact C|]. fold t. cbn [chain]. split; [ring|trivial].
  - rewrite prod_app_fst. fold t. cbn [map fold_right fst]. ring.
Qed.
Lemma solid_contiguous : is_contiguous s dims = Ok true.
Proof.
  unfold is_contiguous, is_regular. rewrite L, Nat.eqb_refl. cbn [assrt bind].
  destruct (match regular_aux s dims with Some _ => true | None => false end); [reflexivity|].
  f_equal. apply (complete_loop (npos s) 1 s []); auto; [|exact I]. cbn [app]. now rewrite remaining_all_pos.
Qed.
End Complete.

Lemma contig_solid s dims : length s = length dims -> nonneg dims -> positive s -> is_contiguous s dims = Ok true -> solid s dims.
Proof.
  intros L N P E. destruct (C04_contiguous_l s dims L N P E) as (_ & A & B & C). rewrite asize_prod in *.
  assert (K : forall ix, in_range ix dims -> offs s ix = Ok (place s ix)).
  { intros ix I. rewrite offs_dot; [now rewrite dot_place|]. rewrite L. now apply in_range_length. }
  repeat split.
  - destruct (A ix H) as (a & Ea & Ra). rewrite (K ix H) in Ea. injection Ea as <-. lia.
  - destruct (A ix H) as (a & Ea & Ra). rewrite (K ix H) in Ea. injection Ea as <-. lia.
  - intros ix jx I J Q. apply B; auto. now rewrite (K ix I), (K jx J), Q.
  - intros a R. destruct (C a R) as (ix & I & Q). exists ix. split; [exact I|]. rewrite (K ix I) in Q. now injection Q.
Qed.

(* ---- the memory a layout needs *)
Definition reach (ax : list (Z * Z)) : Z := fold_right (fun p t => fst p * (snd p - 1) + t) 0 ax.
Lemma reach_perm a b : Permutation a b -> reach a = reach b.
Proof. unfold reach. induction 1; cbn [fold_right]; lia. Qed.
Lemma place_reach s dims ix : length s = length dims -> nonneg s -> in_range ix dims -> place s ix <= reach (combine s dims).
Proof.
  intros L N. revert dims ix L. induction N as [|a s Ha N IH]; intros [|d ds] ix L I; try discriminate L.
  { inversion I; subst; cbn; lia. }
  injection L as L. inversion I as [|i d' ix' ds' Hi I']; subst. rewrite place_cons. cbn [combine reach fold_right fst snd]. fold (reach (combine s ds)).
  specialize (IH ds ix' L I'). nia.
Qed.
Lemma stepping_reach ax : Forall (fun p => 0 < fst p /\ 0 < snd p) ax -> stepping ax ->
  match ax with [] => True | a :: _ => reach ax < fst a * snd a end.
Proof.
  induction 1 as [|a ax Ha H IH]; [trivial|]. intro S. destruct ax as [|b ax].
  - cbn [reach fold_right]. unfold reach. cbn [fold_right]. nia.
  - destruct S as (S1 & S2). specialize (IH S2). unfold reach in *. cbn [fold_right] in *. nia.
Qed.
Lemma max_extent_in s dims t a d : length s = length dims -> In (a, d) (combine s dims) -> a * d <= max_extent s dims t.
Proof.
  revert dims t; induction s as [|x s IH]; intros [|y ds] t L I; try discriminate; [contradiction|]. injection L as L. cbn [combine max_extent] in *.
  destruct I as [E|I]; [injection E as -> ->; pose proof (max_extent_le s ds (Z.max t (a * d))); lia|]. now apply IH.
Qed.
Lemma place_nonneg s ix dims : nonneg s -> in_range ix dims -> 0 <= place s ix.
Proof.
  intro N. revert ix dims. induction N as [|a s Ha N IH]; intros ix dims I; [cbn; lia|]. inversion I as [|i d ix' ds' Hi I']; subst; [cbn; lia|].
  rewrite place_cons. specialize (IH _ _ I'). nia.
Qed.
Lemma memsize_bound s dims ax ix : length s = length dims -> positive s -> Permutation (combine s dims) ax -> stepping ax -> dims <> [] ->
  in_range ix dims -> 0 <= place s ix < max_extent s dims 0.
Proof.
  intros L Ps P S Ne I.
  assert (Ns : nonneg s) by now apply positive_nonneg.
  split; [eapply place_nonneg; eauto|].
  pose proof (place_reach s dims ix L Ns I) as R. rewrite (reach_perm _ _ P) in R.
  assert (F : Forall (fun p => 0 < fst p /\ 0 < snd p) ax).
  { rewrite <- P. pose proof (in_range_positive _ _ I) as Pd. apply Forall_forall. intros [a d] J. cbn. unfold positive in *. rewrite Forall_forall in Ps, Pd.
    split; [apply Ps; eapply in_combine_l; exact J|apply Pd; eapply in_combine_r; exact J]. }
  pose proof (stepping_reach ax F S) as Q. destruct ax as [|[a d] ax].
  - apply Permutation_sym, Permutation_nil in P. destruct s, dims; try discriminate; contradiction.
  - assert (J : In (a, d) (combine s dims)) by (eapply Permutation_in; [symmetry; exact P|now left]).
    pose proof (max_extent_in s dims 0 a d L J). cbn [fst snd] in Q. lia.
Qed.
