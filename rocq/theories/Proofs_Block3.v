(* The blocks of a sparse tensor tile its storage. *)
From Coq Require Import ZArith List Bool Lia Permutation.
Import ListNotations.
From Verif Require Import Base BaseFacts Map Model_Containers Proofs_Containers Proofs_Containers2 Proofs_Containers4 Model_Index Model_View Model_Tensor
  Spec_Index Spec_View Spec_Tensor Proofs_Index Proofs_View Model_Block Proofs_Block.
Open Scope Z_scope.

Lemma split_hi split ns : forall dd i, split <= i -> split_from i split ns dd = strides_of 1 dd.
Proof.
  induction dd as [|d0 dd IH]; intros i Hi; [reflexivity|]. rewrite strides_of_cons. destruct dd as [|d dd]; [reflexivity|].
  change (split_from i split ns (d0 :: d :: dd)) with (hd 0 (split_from (i + 1) split ns (d :: dd)) * d * (if i =? split - 1 then ns else 1) :: split_from (i + 1) split ns (d :: dd)).
  rewrite IH by lia. rewrite strides_of_hd. destruct (Z.eqb_spec i (split - 1)); [lia|]. f_equal. rewrite prod_cons. lia.
Qed.
Lemma split_lo ns hi : hi <> [] -> forall lo i, split_from i (i + Z.of_nat (length lo)) ns (lo ++ hi) = strides_of (ns * prod hi) lo ++ strides_of 1 hi.
Proof.
  intros Hh. induction lo as [|a lo IH]; intro i; [apply split_hi; cbn; lia|]. rewrite strides_of_cons. cbn [app].
  replace (i + Z.of_nat (length (a :: lo))) with (i + 1 + Z.of_nat (length lo)) by (cbn [length]; lia). specialize (IH (i + 1)).
  destruct lo as [|d lo].
  - cbn [app] in *. destruct hi as [|d hi]; [congruence|].
    change (split_from i (i + 1 + Z.of_nat (length [])) ns (a :: d :: hi)) with (hd 0 (split_from (i + 1) (i + 1 + Z.of_nat (@length Z [])) ns (d :: hi)) * d * (if i =? i + 1 + Z.of_nat (@length Z []) - 1 then ns else 1) :: split_from (i + 1) (i + 1 + Z.of_nat (@length Z [])) ns (d :: hi)).
    rewrite IH. change (strides_of (ns * prod (d :: hi)) []) with (@nil Z). cbn [app]. rewrite strides_of_hd. cbn [length]. destruct (Z.eqb_spec i (i + 1 + Z.of_nat 0 - 1)); [|lia]. f_equal. rewrite !prod_cons, prod_nil. lia.
  - change ((d :: lo) ++ hi) with (d :: (lo ++ hi)) in *.
    change (split_from i (i + 1 + Z.of_nat (length (d :: lo))) ns (a :: d :: lo ++ hi)) with
      (hd 0 (split_from (i + 1) (i + 1 + Z.of_nat (length (d :: lo))) ns (d :: lo ++ hi)) * d * (if i =? i + 1 + Z.of_nat (length (d :: lo)) - 1 then ns else 1) :: split_from (i + 1) (i + 1 + Z.of_nat (length (d :: lo))) ns (d :: lo ++ hi)).
    rewrite IH. rewrite strides_of_cons. cbn [app hd]. rewrite prod_cons. destruct (Z.eqb_spec i (i + 1 + Z.of_nat (length (d :: lo)) - 1)); [cbn [length] in *; lia|]. f_equal. lia.
Qed.
Lemma dot_app ix jx s t : length ix = length s -> dot (s ++ t) (ix ++ jx) = dot s ix + dot t jx.
Proof. revert s. induction ix as [|i ix IH]; destruct s as [|a s]; intro L; try discriminate; [reflexivity|]. cbn [app dot]. rewrite IH by (cbn in L; lia). lia. Qed.
(* the shape of a sparse tensor built with split = length lo *)
Lemma stv_shape lo hi l b : hi <> [] -> exists T, stv_make (lo ++ hi) (Z.of_nat (length lo)) l b = Ok T /\
  sdd T = lo ++ hi /\ sds T = strides_of (zlen l * prod hi) lo ++ strides_of 1 hi /\ sss T = prod hi /\ sidx T = si_make l /\ sblk T = b.
Proof.
  intro Hh. unfold stv_make, split_strides. assert (L : (length (lo ++ hi) > 0)%nat) by (rewrite app_length; destruct hi; [congruence|cbn; lia]).
  replace (0 <? Z.of_nat (length (lo ++ hi))) with true by (symmetry; apply Z.ltb_lt; lia). cbn [assrt bind].
  assert (En : sinf (si_make l) = zlen l) by apply offsets_count. rewrite En.
  pose proof (split_lo (zlen l) hi Hh lo 0) as E. rewrite Z.add_0_l in E. rewrite E.
  destruct hi as [|d hi]; [congruence|].
  assert (G : forall (u v : list Z) a, zget (u ++ a :: v) (Z.of_nat (length u)) = Ok a). { intros u v a. unfold zget, vget. replace (Z.of_nat (length u) <? 0) with false by (symmetry; apply Z.ltb_ge; lia). rewrite Nat2Z.id, nth_error_app2, Nat.sub_diag by lia. reflexivity. }
  rewrite strides_of_cons. pose proof (G (strides_of (zlen l * prod (d :: hi)) lo) (strides_of 1 hi) (1 * prod hi)) as G1. rewrite strides_of_length in G1. rewrite G1. cbn [bind]. rewrite G. cbn [bind]. eexists. split; [reflexivity|]. cbn [sdd sds sss sidx sblk].
  split; [reflexivity|]. split; [reflexivity|]. split; [rewrite prod_cons; lia|]. now split.
Qed.
Lemma in_range_split lo hi ix : in_range ix (lo ++ hi) -> exists a c, ix = a ++ c /\ in_range a lo /\ in_range c hi.
Proof.
  revert ix. induction lo as [|d lo IH]; intros ix H; [exists [], ix; split; [reflexivity|]; split; [constructor|exact H]|]. cbn [app] in H. inversion H as [|i d' ix' ds' Hi Hr]; subst.
  destruct (IH _ Hr) as (a & c & -> & Ha & Hc). exists (i :: a), c. split; [reflexivity|]. split; [now constructor|exact Hc].
Qed.
Lemma stv_addr lo hi (l : list (Z * Z)) a c t : in_range a lo -> in_range c hi ->
  t * prod hi + dot (strides_of (zlen l * prod hi) lo ++ strides_of 1 hi) (a ++ c) = (flat a lo * zlen l + t) * prod hi + flat c hi.
Proof.
  intros Ha Hc. rewrite dot_app by (rewrite strides_of_length; now apply in_range_length).
  rewrite !dot_strides_of by (now apply in_range_length). lia.
Qed.
