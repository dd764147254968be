(* Proofs_Axes.v -- multisets of addresses generated by a list of (side, stride) axes. *)
From Verif Require Import Base BaseFacts.
Local Open Scope Z_scope.

(* offsets: a commutative monoid with integer scaling (Z, or tuples of Z for several operands) *)
Record omod := OMod {
  oc :> Type;
  oz : oc; oadd : oc -> oc -> oc; osc : Z -> oc -> oc;
  oadd_assoc : forall a b c, oadd a (oadd b c) = oadd (oadd a b) c;
  oadd_comm : forall a b, oadd a b = oadd b a;
  oadd_0 : forall a, oadd oz a = a;
  osc_add : forall i j s, osc (i + j) s = oadd (osc i s) (osc j s);
  osc_mul : forall i j s, osc (i * j) s = osc i (osc j s);
  osc_0 : forall s, osc 0 s = oz;
  osc_1 : forall s, osc 1 s = s }.
Arguments oz {_}. Arguments oadd {_}. Arguments osc {_}.

Definition ZO : omod.
Proof. refine (OMod Z 0 Z.add Z.mul _ _ _ _ _ _ _); intros; ring. Defined.
Definition ProdO (A B : omod) : omod.
Proof.
  refine (OMod (A * B)%type (oz, oz) (fun p q => (oadd (fst p) (fst q), oadd (snd p) (snd q)))
               (fun i p => (osc i (fst p), osc i (snd p))) _ _ _ _ _ _ _); intros; cbn.
  - now rewrite !oadd_assoc.
  - now rewrite (oadd_comm A), (oadd_comm B).
  - rewrite !oadd_0. now destruct a.
  - now rewrite !osc_add.
  - now rewrite !osc_mul.
  - now rewrite !osc_0.
  - rewrite !osc_1. now destruct s.
Defined.
Definition Z2O := ProdO ZO ZO.
Definition Z3O := ProdO ZO Z2O.

Section Axes.
  Variable M : omod.
  Fixpoint addrs (ax : list (Z * M)) : list M :=
    match ax with
    | [] => [oz]
    | (n, s) :: ax' => flat_map (fun i => map (oadd (osc i s)) (addrs ax')) (zrange n)
    end.

  Lemma oadd_0_r (a : M) : oadd a oz = a.
  Proof. now rewrite oadd_comm, oadd_0. Qed.

  Lemma addrs_one s ax : addrs ((1, s) :: ax) = addrs ax.
  Proof.
    cbn [addrs]. change (zrange 1) with [0]. cbn [flat_map]. rewrite app_nil_r.
    rewrite <- (map_id (addrs ax)) at 2. apply map_ext; intro a.
    rewrite osc_0. apply oadd_0.
  Qed.

  Lemma addrs_zero s ax n : n <= 0 -> addrs ((n, s) :: ax) = [].
  Proof. intro H; cbn. now rewrite zrange_nil. Qed.

  Lemma addrs_fuse n1 n0 s ax : 0 <= n1 -> 0 <= n0 ->
    addrs ((n1, osc n0 s) :: (n0, s) :: ax) = addrs ((n1 * n0, s) :: ax).
  Proof.
    intros H1 H0. cbn. rewrite zrange_mul by assumption. rewrite flat_map_flat_map.
    apply flat_map_ext_in. intros i _. rewrite map_flat_map, flat_map_map.
    apply flat_map_ext_in. intros j _. rewrite map_map. apply map_ext. intro a.
    rewrite osc_add, osc_mul. apply oadd_assoc.
  Qed.

  Lemma addrs_swap x y ax : Permutation (addrs (x :: y :: ax)) (addrs (y :: x :: ax)).
  Proof.
    destruct x as [n s], y as [m t]; cbn.
    erewrite (flat_map_ext_in (fun i => map (oadd (osc i s)) _)).
    2:{ intros i _. rewrite map_flat_map. reflexivity. }
    rewrite Permutation_flat_map_swap2.
    apply Permutation_flat_map_ext. intros j _.
    rewrite map_flat_map. apply Permutation_flat_map_ext. intros i _.
    rewrite !map_map. erewrite map_ext; [reflexivity|]. intro a. cbn.
    rewrite !oadd_assoc. now rewrite (oadd_comm M (osc i s)).
  Qed.

  Lemma addrs_skip x ax ax' :
    Permutation (addrs ax) (addrs ax') -> Permutation (addrs (x :: ax)) (addrs (x :: ax')).
  Proof.
    intro H. destruct x as [n s]; cbn. apply Permutation_flat_map_ext. intros i _.
    now apply Permutation_map.
  Qed.

  Lemma addrs_perm ax ax' : Permutation ax ax' -> Permutation (addrs ax) (addrs ax').
  Proof.
    induction 1.
    - reflexivity.
    - now apply addrs_skip.
    - apply addrs_swap.
    - now transitivity (addrs l').
  Qed.

  Lemma addrs_app ax1 ax2 :
    addrs (ax1 ++ ax2) = flat_map (fun a => map (oadd a) (addrs ax2)) (addrs ax1).
  Proof.
    induction ax1 as [|[n s] ax1 IH].
    - cbn [app addrs flat_map]. rewrite app_nil_r. rewrite <- (map_id (addrs ax2)) at 1.
      apply map_ext. intro; now rewrite oadd_0.
    - cbn [app addrs]. rewrite flat_map_flat_map. apply flat_map_ext_in. intros i _.
      rewrite flat_map_map. rewrite IH, map_flat_map. apply flat_map_ext_in. intros a _.
      rewrite map_map. apply map_ext. intro b. apply oadd_assoc.
  Qed.

  Lemma addrs_length ax : Forall (fun p => 0 <= fst p) ax ->
    Z.of_nat (length (addrs ax)) = fold_right Z.mul 1 (map fst ax).
  Proof.
    induction 1 as [|[n s] ax Hn Hax IH]; [reflexivity|]. cbn in *.
    rewrite <- IH. replace n with (Z.of_nat (length (zrange n))) at 2 by (rewrite zrange_length; lia).
    induction (zrange n) as [|i l IHl]; cbn [flat_map length]; [reflexivity|].
    rewrite app_length, map_length, Nat2Z.inj_add, IHl. lia.
  Qed.

  Lemma addrs_empty ax : (exists p, In p ax /\ fst p <= 0) -> addrs ax = [].
  Proof.
    induction ax as [|[n s] ax IH]; intros (p & Hin & Hp); [contradiction|].
    destruct Hin as [<-|Hin]; cbn in Hp.
    - now apply addrs_zero.
    - cbn. rewrite IH by eauto. induction (zrange n); auto.
  Qed.
End Axes.
Arguments addrs {M}.
