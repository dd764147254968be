(* Proofs_Graph3.v -- the greedy spanning tree. *)
From Verif Require Import Base BaseFacts Map Proofs_Containers2 Model_Containers Proofs_Containers Proofs_Containers4 Model_Tree Proofs_Tree Model_Graph Spec_Graph Proofs_Graph.
Local Open Scope Z_scope.

Definition klabels (ks : list (Z * tree Z)) : list Z := flat_map (fun kt => depth_first_t (snd kt) (fst kt)) ks.
Definition klinks (l : Z) (ks : list (Z * tree Z)) : list (Z * Z) := flat_map (fun kt => (l, fst kt) :: links (snd kt) (fst kt)) ks.
Lemma depth_first_eq ks l : depth_first_t (Tree ks) l = l :: klabels ks. Proof. reflexivity. Qed.
Lemma links_eq ks l : links (Tree ks) l = klinks l ks. Proof. reflexivity. Qed.
Lemma in_M x M : existsb (Z.eqb x) M = true <-> In x M.
Proof. rewrite existsb_exists. split; [intros (y & I & E); apply Z.eqb_eq in E; now subst|intro I; exists x; split; [exact I|apply Z.eqb_refl]]. Qed.

Section DFS.
Context (g : graph) (W : momwf (gd g)) (R : forall i j, nz_edge g i j -> 0 <= j < gn g) (Hn : 0 <= gn g).
Lemma M_length M : NoDup M -> (forall x, In x M -> 0 <= x < gn g) -> Z.of_nat (length M) <= Z.max 0 (gn g).
Proof.
  intros N I. pose proof (NoDup_incl_length N (l' := zrange (gn g)) ltac:(intros x Hx; apply in_zrange; auto)) as L. rewrite zrange_length in L. lia.
Qed.
Lemma gst_ok : forall k v M, NoDup M -> (forall x, In x M -> 0 <= x < gn g) -> gn g - Z.of_nat (length M) < Z.of_nat k ->
  exists ks M', gst k g v M = Ok (Tree ks, M') /\ Permutation M' (klabels ks ++ M) /\ NoDup M' /\ (forall x, In x M' -> 0 <= x < gn g) /\
    (forall e, In e (klinks v ks) -> nz_edge g (fst e) (snd e)) /\ (forall x y, x = v \/ In x (klabels ks) -> nz_edge g x y -> In y M').
Proof.
  induction k as [|k IH]; intros v M N I B; [pose proof (M_length M N I); lia|].
  cbn [gst].
  set (f := fun p (s : list (Z * tree Z) * list Z) => _).
  destruct (foldM_inv (fun done s => Permutation (snd s) (klabels (fst s) ++ M) /\ NoDup (snd s) /\ (forall x, In x (snd s) -> 0 <= x < gn g) /\
     (forall e, In e (klinks v (fst s)) -> nz_edge g (fst e) (snd e)) /\ (forall x y, In x (klabels (fst s)) -> nz_edge g x y -> In y (snd s)) /\
     (forall p, In p done -> snd p <> 0 -> In (fst p) (snd s))) f (mom_row v (gd g)) ([], M)) as ([ks M'] & E & P1 & P2 & P3 & P4 & P5 & P6).
  - cbn. split; [apply Permutation_refl|]. split; [exact N|]. split; [exact I|]. split; [tauto|]. split; tauto.
  - intros done [x w] rest [ks M1] El (P1 & P2 & P3 & P4 & P5 & P6). cbn [fst snd] in *.
    assert (Ix : mom_find v x (gd g) = Some w) by (apply row_in; [exact W|rewrite El, in_app_iff; cbn; auto]).
    unfold f at 1. cbn [fst snd]. destruct (w =? 0) eqn:Ew.
    + exists (ks, M1). split; [reflexivity|]. cbn [fst snd]. repeat (split; [assumption|]). intros p Ip Np. apply in_app_iff in Ip. destruct Ip as [Ip|[<-|[]]]; [auto|]. cbn in Np. lia.
    + assert (Ez : nz_edge g v x) by (exists w; split; [lia|now apply entry_find]). pose proof (R v x Ez) as Rx. unfold in_n. replace ((0 <=? x) && (x <? gn g)) with true by lia. cbn [negb].
      destruct (existsb (Z.eqb x) M1) eqn:Ex.
      * apply in_M in Ex. exists (ks, M1). split; [reflexivity|]. cbn [fst snd]. repeat (split; [assumption|]). intros p Ip Np. apply in_app_iff in Ip. destruct Ip as [Ip|[<-|[]]]; auto.
      * assert (Nx : ~ In x M1) by (rewrite <- in_M; congruence).
        pose proof (Permutation_length P1) as PL. rewrite app_length in PL.
        destruct (IH x (x :: M1)) as (ks2 & M2 & E2 & Q1 & Q2 & Q3 & Q4 & Q5); [now constructor|intros y [<-|Iy]; auto|cbn [length]; lia|].
        rewrite E2. cbn [bind]. exists (ks ++ [(x, Tree ks2)], M2). split; [reflexivity|]. cbn [fst snd].
        assert (Sub : forall y, In y M1 -> In y M2). { intros y Iy. apply (Permutation_in _ (Permutation_sym Q1)). rewrite in_app_iff. cbn. auto. }
        assert (EK : klabels (ks ++ [(x, Tree ks2)]) = klabels ks ++ x :: klabels ks2). { unfold klabels at 1. rewrite flat_map_app. cbn [flat_map fst snd]. rewrite depth_first_eq. cbn [app]. now rewrite app_nil_r. }
        assert (EL : klinks v (ks ++ [(x, Tree ks2)]) = klinks v ks ++ (v, x) :: klinks x ks2). { unfold klinks at 1. rewrite flat_map_app. cbn [flat_map fst snd]. rewrite links_eq. cbn [app]. now rewrite app_nil_r. }
        rewrite EK, EL. split.
        { rewrite Q1, P1. rewrite <- app_assoc. cbn [app]. rewrite (Permutation_app_comm (klabels ks2)). cbn [app].
          rewrite <- app_assoc. rewrite (Permutation_app_comm M). rewrite (app_assoc (klabels ks)), <- (app_assoc (klabels ks)). rewrite Permutation_middle. apply Permutation_refl. }
        split; [exact Q2|]. split; [exact Q3|]. split.
        { intros e Ie. apply in_app_iff in Ie. destruct Ie as [Ie|[<-|Ie]]; auto. }
        split.
        { intros a b Ia Eb. apply in_app_iff in Ia. destruct Ia as [Ia|[<-|Ia]].
          - apply Sub. now apply (P5 a b).
          - apply (Q5 x b); auto.
          - apply (Q5 a b); auto. }
        { intros p Ip Np. apply in_app_iff in Ip. destruct Ip as [Ip|[<-|[]]]; [apply Sub; now apply P6|]. cbn. apply (Permutation_in _ (Permutation_sym Q1)). rewrite in_app_iff. cbn. auto. }
  - rewrite E. cbn [bind fst snd] in *. exists ks, M'. split; [reflexivity|]. repeat (split; [assumption|]).
    intros x y [->|Hx] Ey; [|now apply (P5 x y)]. destruct Ey as (w & Nw & Ey). apply (P6 (y, w)); [|exact Nw]. apply row_in; [exact W|]. now apply entry_find.
Qed.
Lemma reach_links r : forall t l, (forall e, In e (links t l) -> nz_edge g (fst e) (snd e)) -> reach g r l -> forall x, In x (depth_first_t t l) -> reach g r x.
Proof.
  induction t as [ks IH] using tree_ind2. intros l HL Hr x Hx. rewrite depth_first_eq in Hx. rewrite links_eq in HL. destruct Hx as [<-|Hx]; [exact Hr|].
  unfold klabels in Hx. apply in_flat_map in Hx. destruct Hx as ([a t] & Ik & Hx). cbn in Hx. apply (IH a t Ik a); [| |exact Hx].
  - intros e Ie. apply HL. unfold klinks. apply in_flat_map. exists (a, t). split; [exact Ik|]. right. exact Ie.
  - apply (reach_step g r l a Hr). apply (HL (l, a)). unfold klinks. apply in_flat_map. exists (a, t). split; [exact Ik|]. now left.
Qed.
Lemma spanning_ok root k : 0 <= root < gn g -> gn g <= Z.of_nat k ->
  exists t, greedy_spanning_tree k g root = Ok (root, t) /\ NoDup (depth_first (root, t)) /\ (forall v, In v (depth_first (root, t)) <-> reach g root v) /\
    (forall e, In e (links t root) -> nz_edge g (fst e) (snd e)) /\ (forall v, In v (depth_first (root, t)) -> 0 <= v < gn g).
Proof.
  intros Hr Hk. unfold greedy_spanning_tree, in_n. replace ((0 <=? root) && (root <? gn g)) with true by lia. cbn [negb].
  destruct (gst_ok k root [root]) as (ks & M & E & P & N & Rg & L & C); [constructor; [intros []|constructor]|intros x [<-|[]]; exact Hr|cbn [length]; lia|].
  rewrite E. cbn [bind fst]. exists (Tree ks). split; [reflexivity|]. unfold depth_first. cbn [fst snd]. rewrite depth_first_eq.
  assert (P' : Permutation M (root :: klabels ks)) by (rewrite P; apply Permutation_app_comm).
  split; [now apply (Permutation_NoDup P')|]. split; [|split; [exact L|]].
  - intro v. split.
    + intro Iv. apply (reach_links root (Tree ks) root); [exact L|constructor|exact Iv].
    + intro Hv. induction Hv as [|u v Hu IH Ev]; [now left|]. apply (Permutation_in _ P'). apply (C u v); [|exact Ev]. destruct IH as [<-|IH]; auto.
  - intros v Iv. apply Rg. now apply (Permutation_in _ (Permutation_sym P')).
Qed.
End DFS.
