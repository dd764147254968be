From Verif Require Import Base BaseFacts Map Model_Index Model_View Model_Tensor Model_Containers Model_Gather
  Spec_Index Spec_View Spec_Tensor Spec_Gather Proofs_Axes Proofs_Index Proofs_Tensor Accum Proofs_Gather Proofs_Gather2.
Local Open Scope Z_scope.
Section S5.
Context {R : cring}.
Add Ring RrP : (cth R).
Notation memR := (mem (car R)).
Lemma pairs_calls qs : pairs qs = mol_calls qs.
Proof. reflexivity. Qed.
Lemma mat_view2 (m : memR) v N K X : mat m v N K X -> exists mv, view2 v = Ok mv /\ n0 mv = N /\ n1 mv = K /\
  (forall i k, vaddr v [i; k] = Ok (mcell mv i k)) /\ (forall i k, 0 <= i < N -> 0 <= k < K -> at_ m (mcell mv i k) = Some (X i k)).
Proof.
  intros (Ed & Ls & H). destruct v as [b o d s]. cbn [vdims vstr] in *. subst d. destruct s as [|a [|t [|]]]; try discriminate. exists (MV b o N K a t). split; [reflexivity|]. cbn [n0 n1].
  assert (Va : forall i k, vaddr (View b o [N; K] [a; t]) [i; k] = Ok (mcell (MV b o N K a t) i k)).
  { intros i k. unfold mcell. cbn. replace (o + (a * i + (t * k + 0))) with (o + i * a + k * t) by ring. reflexivity. }
  repeat split; auto. intros i k Hi Hk. rewrite <- (H i k Hi Hk). unfold elem. rewrite Va. reflexivity.
Qed.
Lemma range2 i k N K : in_range [i; k] [N; K] <-> 0 <= i < N /\ 0 <= k < K.
Proof. unfold in_range. split; [intro H; inversion H as [|? ? ? ? A B]; inversion B; auto|intros [A B]; repeat constructor; lia]. Qed.
Lemma in_range2 ix N K : in_range ix [N; K] -> exists i k, ix = [i; k] /\ 0 <= i < N /\ 0 <= k < K.
Proof.
  unfold in_range. intro H. inversion H as [|i ? l ? A B]; subst. inversion B as [|k ? l' ? C D]; subst. inversion D; subst. exists i, k. auto.
Qed.
(* the effect of a gather on matrices *)
Lemma gather_mat (m : memR) r x g es N Nx K A X : mat m r N K A -> mat m x Nx K X -> distinct_cells r -> disjoint_views r x ->
  one_col g -> map_entries g es -> within N Nx es ->
  exists m', gather_rows r x g m = Ok m' /\ mat m' r N K (fun i k => cadd (A i k) (gathered es X i k)) /\ untouched m m' r.
Proof.
  intros Hr Hx Dr Dx (C1 & C2 & C3 & C4) (fk & qs & F & Q & ->) W. assert (Hr' := Hr). assert (Hx' := Hx).
  destruct (mat_view2 _ _ _ _ _ Hr) as (rv & Er & Nr & Kr & Vr & Cr). destruct (mat_view2 _ _ _ _ _ Hx) as (xv & Exx & Nxx & Kx & Vx & Cx).
  destruct Hr' as (Dr1 & Lr & Fr). destruct Hx' as (Dx1 & Lx & Fx). set (es := pairs (concat fk ++ qs)) in *.
  assert (Inj : forall i k i' k', 0 <= i < N -> 0 <= k < K -> 0 <= i' < N -> 0 <= k' < K -> mcell rv i k = mcell rv i' k' -> i = i' /\ k = k').
  { intros i k i' k' H1 H2 H3 H4 E. assert (E' : [i; k] = [i'; k']); [|now injection E'].
    apply Dr; rewrite ?Dr1, ?range2; auto. now rewrite !Vr, E. }
  assert (Pre : gather_pre m rv xv es).
  { split.
    - intros e k He Hk. rewrite Kr in Hk. destruct (W e He). rewrite Cr, Cx by auto. split; discriminate.
    - intros e e' k k' He He' Hk Hk' E. rewrite Kr in *. destruct (W e He), (W e' He'). apply (Dx [fst e; k] [snd e'; k']); rewrite ?Dr1, ?Dx1, ?range2; auto.
      now rewrite Vr, Vx, E. }
  destruct (gather_graded_ok r x rv xv g fk qs m) as (m' & E & P); auto; [congruence|].
  exists m'. split; [assumption|]. change (mol_calls (concat fk ++ qs)) with es in P. split.
  - split; [assumption|]. split; [assumption|]. intros i k Hi Hk. unfold elem. rewrite Vr. cbn. change (at_ m' (mcell rv i k) = Some (cadd (A i k) (gathered es X i k))).
    rewrite (plus_at _ _ _ _ _ P (Cr i k Hi Hk)). do 2 f_equal. rewrite gsum_cell.
    + unfold gathered. apply rsum_ext. intros e He. apply filter_In in He. destruct He as [He _]. unfold val0. rewrite Cx; auto. now apply W.
    + lia.
    + intros e k' He Hk' Ec. destruct (W e He). apply Inj; auto; lia.
  - intros b a Ho. change (at_ m' (b, a) = at_ m (b, a)). apply (plus_off _ _ _ _ P). unfold gsum, added.
    rewrite filter_rsum. apply rsum_zero. intros ek Hek. apply in_eks in Hek. destruct Hek as [He Hk]. rewrite Kr in Hk. destruct (W _ He).
    destruct (aeqb _ _) eqn:Ea; [|reflexivity]. exfalso. apply aeqb_eq in Ea. apply (Ho [fst (fst ek); snd ek]); [now rewrite Dr1, range2|]. rewrite Vr. f_equal. exact Ea.
Qed.
(* the adjoint identity *)
Lemma gathered_perm es es' (X : Z -> Z -> R) i k : Permutation es es' -> gathered es X i k = gathered es' X i k.
Proof. intro P. unfold gathered. rewrite !filter_rsum. apply rsum_perm. now apply Permutation_map. Qed.
Lemma gathered_sum es (X : Z -> Z -> R) i k : gathered es X i k = rsum (map (fun e => if fst e =? i then X (snd e) k else c0) es).
Proof. unfold gathered. apply filter_rsum. Qed.
Lemma rsum_zif (f : Z -> R) (a N : Z) : 0 <= a < N -> rsum (map (fun i => if a =? i then f i else c0) (zrange N)) = f a.
Proof.
  intro H. rewrite (rsum_single R _ _ a); [|apply zrange_nodup|now apply in_zrange|].
  - now rewrite Z.eqb_refl.
  - intros b _ Nb. destruct (a =? b) eqn:E; [|reflexivity]. apply Z.eqb_eq in E. congruence.
Qed.
Lemma inner_gathered es N Nx K (X Y : Z -> Z -> R) : within N Nx es ->
  inner N K (gathered es X) Y = rsum (map (fun e => rsum (map (fun k => cmul (X (snd e) k) (Y (fst e) k)) (zrange K))) es).
Proof.
  intro W. unfold inner. transitivity (rsum (map (fun i => rsum (map (fun e => if fst e =? i then rsum (map (fun k => cmul (X (snd e) k) (Y (fst e) k)) (zrange K)) else c0) es)) (zrange N))).
  - apply rsum_ext. intros i Hi. rewrite (rsum_ext R _ (fun k => rsum (map (fun e => if fst e =? i then cmul (X (snd e) k) (Y i k) else c0) es))).
    + rewrite rsum_swap. apply rsum_ext. intros e _. destruct (fst e =? i) eqn:E; [apply Z.eqb_eq in E; now subst|]. apply rsum_zero. auto.
    + intros k _. rewrite gathered_sum, <- rsum_map_mul_r. apply rsum_ext. intros e _. destruct (fst e =? i); ring.
  - rewrite rsum_swap. apply rsum_ext. intros e He. destruct (W e He). now rewrite (rsum_zif (fun _ => rsum (map (fun k => cmul (X (snd e) k) (Y (fst e) k)) (zrange K)))).
Qed.
Lemma inner_comm N K (X Y : Z -> Z -> R) : inner N K X Y = inner N K Y X.
Proof. unfold inner. apply rsum_ext. intros. apply rsum_ext. intros. ring. Qed.
Lemma within_swap N Nx es : within N Nx es -> within Nx N (map swap es).
Proof. intros W e He. apply in_map_iff in He. destruct He as (e' & <- & He). destruct (W e' He). auto. Qed.
Lemma within_perm N Nx es es' : Permutation es es' -> within N Nx es -> within N Nx es'.
Proof. intros P W e He. apply W. now apply (Permutation_in e (Permutation_sym P)). Qed.
Lemma adjoint es es' N Nx K (X Y : Z -> Z -> R) : within N Nx es -> Permutation es' (map swap es) ->
  inner N K (gathered es X) Y = inner Nx K X (gathered es' Y).
Proof.
  intros W P. rewrite (inner_gathered es N Nx) by assumption. rewrite (inner_comm Nx K X). rewrite (inner_gathered es' Nx N).
  - rewrite (rsum_perm R _ _ (Permutation_map _ P)), map_map. apply rsum_ext. intros e _. apply rsum_ext. intros k _. cbn. ring.
  - apply (within_perm _ _ _ _ (Permutation_sym P)). now apply within_swap.
Qed.
Lemma inner_ext N K (X X' Y Y' : Z -> Z -> R) : (forall i k, 0 <= i < N -> 0 <= k < K -> X i k = X' i k /\ Y i k = Y' i k) -> inner N K X Y = inner N K X' Y'.
Proof. intro H. unfold inner. apply rsum_ext. intros i Hi. apply in_zrange in Hi. apply rsum_ext. intros k Hk. apply in_zrange in Hk. destruct (H i k Hi Hk) as [-> ->]. reflexivity. Qed.
Lemma inner_add N K (X X' Y : Z -> Z -> R) : inner N K (fun i k => cadd (X i k) (X' i k)) Y = cadd (inner N K X Y) (inner N K X' Y).
Proof.
  unfold inner. rewrite <- rsum_map_add. apply rsum_ext. intros i _. rewrite <- rsum_map_add. apply rsum_ext. intros k _. ring.
Qed.
Lemma inner_zero N K (Y : Z -> Z -> R) : inner N K (fun _ _ => c0) Y = c0.
Proof. unfold inner. apply rsum_zero. intros i _. apply rsum_zero. intros k _. ring. Qed.
End S5.
