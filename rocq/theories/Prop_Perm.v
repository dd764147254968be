(* Prop_Perm.v -- C49, C50, C74: permutations, orderings, named constructors. *)
From Verif Require Import Base BaseFacts Model_Index Spec_Index Proofs_Index Model_Containers Proofs_Containers Model_Perm Spec_Perm Proofs_Perm Proofs_Perm2.
From Coq Require Import Sorting.Sorted.
Local Open Scope Z_scope.

(* ================= C49 ================= *)
Lemma bij_comp n f g : bij n f -> bij n g -> bij n (fun i => f (g i)).
Proof. intros [If Jf] [Ig Jg]. split; [intros i Hi; auto|]. intros i j Hi Hj E. apply Jg; auto. Qed.
(* the product is composition *)
Theorem C49_product : forall n p x f g, 0 <= n -> holds p n f -> bij n f -> holds x n g -> bij n g ->
  exists r, pmul p x = Ok r /\ holds r n (fun i => f (g i)) /\ bij n (fun i => f (g i)).
Proof. intros n p x f g N P Bf X Bg. destruct (pmul_ok p x n f g N P X (proj1 Bg)) as (r & E & R). exists r. split; [assumption|]. split; [assumption|]. now apply bij_comp. Qed.
Print Assumptions C49_product.
(* the inverse composes to the identity on both sides *)
Theorem C49_inverse : forall n p, 0 <= n -> perm_of p n -> exists q e, pinverse p = Ok q /\ perm_of q n /\ pidentity n = Ok e /\ pmul p q = Ok e /\ pmul q p = Ok e.
Proof.
  intros n p N (f & P & B). destruct (pinverse_ok p n f N P B) as (q & g & E & Q & Bg & GF & FG). destruct (identity_ok n N) as (e & Ee & He). exists q, e. split; [assumption|]. split; [exists g; auto|]. split; [assumption|].
  destruct (pmul_ok p q n f g N P Q (proj1 Bg)) as (r1 & E1 & R1). destruct (pmul_ok q p n g f N Q P (proj1 B)) as (r2 & E2 & R2).
  assert (r1 = e) by (rewrite He; exact (holds_ext r1 n _ (fun i => i) R1 FG)). assert (r2 = e) by (rewrite He; exact (holds_ext r2 n _ (fun i => i) R2 GF)). subst. auto.
Qed.
Print Assumptions C49_inverse.
(* the identity is neutral and the product associative *)
Theorem C49_group : forall n p x y, 0 <= n -> perm_of p n -> perm_of x n -> perm_of y n ->
  (exists e, pidentity n = Ok e /\ perm_of e n /\ pmul e p = Ok p /\ pmul p e = Ok p) /\
  exists px xy r, pmul p x = Ok px /\ pmul x y = Ok xy /\ pmul px y = Ok r /\ pmul p xy = Ok r.
Proof.
  intros n p x y N (f & P & Bf) (g & X & Bg) (h & Y & Bh). split.
  - destruct (identity_ok n N) as (e & E & He). exists e. assert (Be : bij n (fun i => i)) by (split; [intros i Hi; assumption|intros i j _ _ Eq; assumption]). split; [assumption|]. split; [exists (fun i => i); auto|].
    destruct (pmul_ok e p n _ f N He P (proj1 Bf)) as (r1 & E1 & R1). destruct (pmul_ok p e n f _ N P He (proj1 Be)) as (r2 & E2 & R2). rewrite E1, E2. split; f_equal; rewrite P; assumption.
  - destruct (pmul_ok p x n f g N P X (proj1 Bg)) as (px & E1 & R1). destruct (pmul_ok x y n g h N X Y (proj1 Bh)) as (xy & E2 & R2). pose proof (bij_comp n g h Bg Bh) as Bgh.
    destruct (pmul_ok px y n _ h N R1 Y (proj1 Bh)) as (r & E3 & R3). destruct (pmul_ok p xy n f _ N P R2 (proj1 Bgh)) as (r' & E4 & R4). exists px, xy, r. repeat (split; [assumption|]). rewrite E4. f_equal. unfold holds in *. congruence.
Qed.
Print Assumptions C49_group.
(* is_valid recognises exactly the bijections among arrays whose entries all have values *)
Theorem C49_is_valid : forall n p f, 0 <= n -> holds p n f -> exists b, pvalid p = Ok b /\ (b = true <-> perm_of p n).
Proof.
  intros n p f N P. destruct (pvalid_ok p n f N P) as (b & E & H). exists b. split; [assumption|]. rewrite H. split; [intro B; exists f; auto|]. intros (g & G & [I J]). pose proof (holds_fun p n f g N P G) as Eq. split.
  - intros i Hi. rewrite Eq by assumption. auto.
  - intros i j Hi Hj Ef. apply J; auto. rewrite <- !Eq by assumption. assumption.
Qed.
Print Assumptions C49_is_valid.
(* inv(i) is the position of i; equality compares all entries *)
Theorem C49_inv_at : forall n p f, 0 <= n -> holds p n f -> bij n f -> forall i, (0 <= i < n -> exists j, pinv_at p i = Ok j /\ 0 <= j < n /\ f j = i) /\ (~ 0 <= i < n -> pinv_at p i = Throw).
Proof.
  intros n p f N P B i. unfold pinv_at. pose proof (holds_len p n f N P) as L. unfold blen in L. split; intro Hi; (destruct (pinv_from_ok p n f i P (length p) 0 ltac:(lia) ltac:(lia) ltac:(intros; lia)) as [(j & E & Hj & Ef & _)|[E No]]).
  - eauto.
  - exfalso. destruct (bij_surj n f B i Hi) as (k & Hk & Ek). exact (No k Hk Ek).
  - exfalso. apply Hi. rewrite <- Ef. now apply B.
  - assumption.
Qed.
Print Assumptions C49_inv_at.
Theorem C49_equality : forall p x n n' f g, 0 <= n -> 0 <= n' -> holds p n f -> holds x n' g -> exists b, peq p x = Ok b /\ (b = true <-> p = x).
Proof.
  intros p x n n' f g N N' P X. destruct (peq_ok p x n n' f g N N' P X) as (b & E & H). exists b. split; [assumption|]. rewrite H. split.
  - intros [<- Eq]. rewrite X. exact (holds_ext p n f g P Eq).
  - intros ->. pose proof (holds_len x n f N P). pose proof (holds_len x n' g N' X). assert (Enn : n' = n) by lia. rewrite Enn in X. split; [lia|]. now apply holds_fun with x.
Qed.
Print Assumptions C49_equality.
(* the in-place product composes the other way round: p*=x leaves x*p in p, not p*x ... *)
Theorem C49_in_place_reversed : forall n p x, 0 <= n -> perm_of p n -> perm_of x n -> exists r, pmul_assign p x = Ok r /\ pmul x p = Ok r.
Proof.
  intros n p x N (f & P & Bf) (g & X & Bg). destruct (pmul_assign_ok p x n f g N P X (proj1 Bf)) as (r & E & R). destruct (pmul_ok x p n g f N X P (proj1 Bf)) as (r' & E' & R'). exists r. split; [assumption|]. rewrite E'. f_equal. unfold holds in *. congruence.
Qed.
Print Assumptions C49_in_place_reversed.
(* ... so it differs from the product whenever the two do not commute *)
Theorem C49_in_place_refuted : forall n p x, 0 <= n -> perm_of p n -> perm_of x n -> (pmul_assign p x = pmul p x <-> pmul p x = pmul x p).
Proof. intros n p x N P X. destruct (C49_in_place_reversed n p x N P X) as (r & E & E'). rewrite E, E'. split; intro H; congruence. Qed.
Print Assumptions C49_in_place_refuted.
Definition pz (l : list Z) : buf := map Some l.
Lemma perm_of_list l : bij (Z.of_nat (length l)) (fun i => nth (Z.to_nat i) l 0) -> perm_of (pz l) (Z.of_nat (length l)).
Proof.
  intro B. exists (fun i => nth (Z.to_nat i) l 0). split; [|assumption]. apply holds_intro; [lia|unfold blen, pz; now rewrite map_length|]. intros i Hi. unfold cell, pz. replace (0 <=? i) with true by lia.
  rewrite (nth_indep _ None (Some 0)) by (rewrite map_length; lia). now rewrite (map_nth Some).
Qed.
Example C49_case : perm_of (pz [1; 2; 0; 3]) 4 /\ perm_of (pz [0; 2; 1; 3]) 4 /\ pmul (pz [1; 2; 0; 3]) (pz [0; 2; 1; 3]) = Ok (pz [1; 0; 2; 3]) /\ pmul_assign (pz [1; 2; 0; 3]) (pz [0; 2; 1; 3]) = Ok (pz [2; 1; 0; 3]) /\
  pinverse (pz [1; 2; 0; 3]) = Ok (pz [2; 0; 1; 3]) /\ pvalid (pz [1; 1; 0]) = Ok false /\ pvalid (pz [1; 3; 0]) = Ok false /\ pvalid [Some 0; None] = UB /\ pinv_at (pz [1; 2; 0; 3]) 0 = Ok 2.
Proof.
  assert (B : forall l, pvalid (pz l) = Ok true -> perm_of (pz l) (Z.of_nat (length l))). { intros l V. assert (Hl : holds (pz l) (Z.of_nat (length l)) (fun i => nth (Z.to_nat i) l 0)).
    { apply holds_intro; [lia|unfold blen, pz; now rewrite map_length|]. intros i Hi. unfold cell, pz. replace (0 <=? i) with true by lia. rewrite (nth_indep _ None (Some 0)) by (rewrite map_length; lia). now rewrite (map_nth Some). }
    destruct (C49_is_valid _ _ _ (Zle_0_nat (length l)) Hl) as (b & E & H). rewrite V in E. injection E as <-. now apply H. }
  split; [apply (B [1; 2; 0; 3]); vm_compute; reflexivity|]. split; [apply (B [0; 2; 1; 3]); vm_compute; reflexivity|]. repeat split.
Qed.

(* ================= C50 ================= *)
Definition at_pos {A} (d : A) (v : list A) (i : Z) : A := nth (Z.to_nat i) v d.
(* f lists the positions of v in sorted order, ties in original order *)
Definition sorts {A} (lt : A -> A -> bool) (d : A) (v : list A) (f : Z -> Z) : Prop :=
  bij (Z.of_nat (length v)) f /\ forall i j, 0 <= i < j -> j < Z.of_nat (length v) ->
    lt (at_pos d v (f j)) (at_pos d v (f i)) = false /\ (lt (at_pos d v (f i)) (at_pos d v (f j)) = false -> f i < f j).
Lemma sorted_map {A} (R : A -> A -> Prop) (g : Z -> A) n : (forall i j, 0 <= i < j -> j < n -> R (g i) (g j)) -> StronglySorted R (map g (zrange n)).
Proof.
  intro H. unfold zrange. rewrite map_map. assert (G : forall k s, 0 <= Z.of_nat s -> Z.of_nat (s + k) <= Z.max n 0 -> StronglySorted R (map (fun x => g (Z.of_nat x)) (seq s k))).
  { induction k as [|k IH]; intros s Hs Hk; cbn; constructor; [apply IH; lia|]. apply Forall_forall. intros y Hy. apply in_map_iff in Hy. destruct Hy as (x & <- & Hx). apply in_seq in Hx. apply H; lia. }
  apply G; lia.
Qed.
Lemma ordering_sorts {A} (lt : A -> A -> bool) d v : weak_order lt -> exists r f, ordering lt d v = Ok r /\ holds r (Z.of_nat (length v)) f /\ sorts lt d v f.
Proof.
  intros [As Nt]. unfold ordering. set (n := Z.of_nat (length v)). set (less := fun j l : Z => lt (nth (Z.to_nat j) v d) (nth (Z.to_nat l) v d)). destruct (ordering_by_ok less n ltac:(lia)) as (r & E & R & B).
  assert (W : weak_order less) by (split; unfold less; eauto). exists r, (order_fun less n). split; [assumption|]. split; [assumption|]. split; [assumption|]. intros i j Hi Hj. exact (order_sorted less n W ltac:(lia) i j Hi Hj).
Qed.
(* ordering(v) lists the positions in non-decreasing order of their entries, ties in original order; reorder then sorts v *)
Theorem C50_ordering : forall A (lt : A -> A -> bool) d v, weak_order lt -> exists r f w, ordering lt d v = Ok r /\ holds r (Z.of_nat (length v)) f /\ sorts lt d v f /\
  preorder r v = Ok w /\ Permutation w v /\ StronglySorted (fun a b => lt b a = false) w.
Proof.
  intros A lt d v W. destruct (ordering_sorts lt d v W) as (r & f & E & R & [B O]). exists r, f. eexists. split; [assumption|]. split; [assumption|]. split; [split; assumption|]. split; [apply reorder_ok; [exact R|apply B]|]. split; [now apply reorder_perm|].
  apply sorted_map. intros i j Hi Hj. exact (proj1 (O i j Hi Hj)).
Qed.
Print Assumptions C50_ordering.
(* reverse_ordering(v): non-increasing, ties in original order *)
Theorem C50_reverse_ordering : forall A (lt : A -> A -> bool) d v, weak_order lt -> exists r f w, reverse_ordering lt d v = Ok r /\ holds r (Z.of_nat (length v)) f /\ sorts (fun a b => lt b a) d v f /\
  preorder r v = Ok w /\ Permutation w v /\ StronglySorted (fun a b => lt a b = false) w.
Proof.
  intros A lt d v [As Nt]. apply (C50_ordering A (fun a b => lt b a) d v). split; [intros a b H; now apply As|]. intros a b c H. destruct (Nt b a c H); auto.
Qed.
Print Assumptions C50_reverse_ordering.
(* ordering(n,less), for a strict weak order on positions *)
Theorem C50_ordering_by : forall n less, 0 <= n -> weak_order less -> exists r f, ordering_by n less = Ok r /\ holds r n f /\ bij n f /\
  forall i j, 0 <= i < j -> j < n -> less (f j) (f i) = false /\ (less (f i) (f j) = false -> f i < f j).
Proof. intros n less N W. destruct (ordering_by_ok less n N) as (r & E & R & B). exists r, (order_fun less n). repeat (split; [assumption|]). intros i j Hi Hj. now apply order_sorted. Qed.
Print Assumptions C50_ordering_by.
(* whatever the comparison does, the result is a permutation *)
Theorem C50_always_permutation : forall n less, 0 <= n -> exists r, ordering_by n less = Ok r /\ perm_of r n.
Proof. intros n less N. destruct (ordering_by_ok less n N) as (r & E & R & B). exists r. split; [assumption|]. exists (order_fun less n). auto. Qed.
Print Assumptions C50_always_permutation.
(* sorts determines the permutation *)
Theorem C50_unique : forall A (lt : A -> A -> bool) d v f g, weak_order lt -> sorts lt d v f -> sorts lt d v g -> forall i, 0 <= i < Z.of_nat (length v) -> f i = g i.
Proof.
  intros A lt d v f g [As Nt] [Bf Of] [Bg Og]. set (n := Z.of_nat (length v)) in *.
  (* both list the positions in the strict order "before" *)
  set (before := fun p q => lt (at_pos d v p) (at_pos d v q) = true \/ (lt (at_pos d v q) (at_pos d v p) = false /\ p < q)).
  assert (Asym : forall p q, before p q -> before q p -> False). { intros p q [H1|[H1 H1']] [H2|[H2 H2']]; [apply As in H1; congruence|congruence|congruence|lia]. }
  assert (Ff : forall i j, 0 <= i < j -> j < n -> before (f i) (f j)). { intros i j Hi Hj. destruct (Of i j Hi Hj) as [H1 H2]. unfold before. destruct (lt (at_pos d v (f i)) (at_pos d v (f j))) eqn:E; [now left|right; auto]. }
  assert (Gg : forall i j, 0 <= i < j -> j < n -> before (g i) (g j)). { intros i j Hi Hj. destruct (Og i j Hi Hj) as [H1 H2]. unfold before. destruct (lt (at_pos d v (g i)) (at_pos d v (g j))) eqn:E; [now left|right; auto]. }
  assert (H : forall k i, 0 <= i < Z.of_nat k -> i < n -> f i = g i).
  { induction k as [|k IH]; [lia|]. intros i Hi Hn. destruct (Z.lt_ge_cases i (Z.of_nat k)); [apply IH; lia|]. assert (i = Z.of_nat k) by lia. subst i.
    destruct (bij_surj n f Bf (g (Z.of_nat k)) (proj1 Bg (Z.of_nat k) ltac:(lia))) as (a & Ha & Ea). destruct (bij_surj n g Bg (f (Z.of_nat k)) (proj1 Bf (Z.of_nat k) ltac:(lia))) as (b & Hb & Eb).
    assert (Ka : Z.of_nat k <= a). { destruct (Z.lt_ge_cases a (Z.of_nat k)) as [L|L]; [|assumption]. rewrite (IH a) in Ea by lia. apply (proj2 Bg) in Ea; lia. }
    assert (Kb : Z.of_nat k <= b). { destruct (Z.lt_ge_cases b (Z.of_nat k)) as [L|L]; [|assumption]. rewrite <- (IH b) in Eb by lia. apply (proj2 Bf) in Eb; lia. }
    destruct (Z.eq_dec a (Z.of_nat k)) as [->|Na]; [assumption|]. destruct (Z.eq_dec b (Z.of_nat k)) as [->|Nb]; [now symmetry|]. exfalso. apply (Asym (f (Z.of_nat k)) (g (Z.of_nat k))); [rewrite <- Ea; apply Ff; lia|rewrite <- Eb; apply Gg; lia]. }
  intros i Hi. apply (H (Z.to_nat n)); lia.
Qed.
Print Assumptions C50_unique.
Lemma Zltb_weak : weak_order Z.ltb. Proof. split; intros; lia. Qed.
Definition key_lt (a b : Z * Z) : bool := fst a <? fst b.
Example C50_case : weak_order key_lt /\ ordering key_lt (0, 0) [(3, 0); (1, 1); (3, 2); (1, 3); (2, 4)] = Ok (pz [1; 3; 4; 0; 2]) /\
  reverse_ordering key_lt (0, 0) [(3, 0); (1, 1); (3, 2); (1, 3); (2, 4)] = Ok (pz [0; 2; 4; 1; 3]) /\ preorder (pz [1; 3; 4; 0; 2]) [30; 10; 31; 11; 20] = Ok [10; 11; 20; 30; 31].
Proof. split; [unfold key_lt; split; intros; lia|]. repeat split. Qed.

(* ================= C74 ================= *)
(* identity, transpositions and random permutations are permutations *)
Theorem C74_identity : forall n, 0 <= n -> exists r, pidentity n = Ok r /\ holds r n (fun i => i) /\ pvalid r = Ok true.
Proof.
  intros n N. destruct (identity_ok n N) as (r & E & H). exists r. repeat (split; [assumption|]). destruct (pvalid_ok r n _ N H) as (b & Eb & Hb). rewrite Eb. f_equal. apply Hb. split; [intros i Hi; assumption|intros i j _ _ Eq; assumption].
Qed.
Print Assumptions C74_identity.
Theorem C74_transposition : forall n i j, 0 <= i < n -> 0 <= j < n -> exists r, ptransposition n i j = Ok r /\ pvalid r = Ok true /\ holds r n (fun k => if k =? i then j else if k =? j then i else k).
Proof.
  intros n i j Hi Hj. destruct (transposition_ok n i j Hi Hj) as (r & E & H). exists r. split; [assumption|]. split; [|exact H]. destruct (pvalid_ok r n _ ltac:(lia) H) as (b & Eb & Hb). rewrite Eb. f_equal. apply Hb. now apply swap_bij.
Qed.
Print Assumptions C74_transposition.
Theorem C74_random : forall n draws, 0 <= n -> (forall i, 0 <= i < n -> 0 <= draws i <= n - 1 - i) -> exists r, prandom n draws = Ok r /\ perm_of r n /\ pvalid r = Ok true.
Proof.
  intros n draws N D. destruct (random_ok n draws N D) as (r & E & P). exists r. split; [assumption|]. split; [assumption|]. destruct P as (f & H & B). destruct (pvalid_ok r n f N H) as (b & Eb & Hb). rewrite Eb. f_equal. now apply Hb.
Qed.
Print Assumptions C74_random.
(* contiguous_cycle counts from one in part of its loops: except for the full cycle given as (0,n), it writes outside the
   array or returns something that is not a permutation *)
Theorem C74_contiguous_cycle_refuted : forall n a b, 1 <= n -> 0 <= a -> 0 <= b <= n -> ~ (a = 0 /\ b = n) -> ~ exists r, pcontiguous_cycle n a b = Ok r /\ pvalid r = Ok true.
Proof.
  intros n a b Hn Ha Hb Ex (r & E & V). unfold pcontiguous_cycle in E.
  assert (T : forall g : Z -> Z, forall j : Z, exists x y, @Ok Z j = Ok x /\ Ok (g j) = Ok y) by (intros; eauto).
  pose proof (blen_new n ltac:(lia)) as L0. destruct (a <? b) eqn:Eab.
  - destruct (fill_safe (bnew n) (from_to 1 (a - 1)) Ok Ok (T (fun i => i))) as [U|(r1 & E1 & L1 & C1)]; [rewrite U in E; discriminate|]. rewrite E1 in E. cbn [bind] in E.
    destruct (Z.lt_ge_cases b n) as [Lb|Lb]; [rewrite (fill_bad r1 _ Ok Ok n n) in E; [discriminate|apply in_from_to; lia|reflexivity|lia|apply (T (fun i => i))]|].
    destruct (fill_safe r1 (from_to (b + 1) n) Ok Ok (T (fun i => i))) as [U|(r2 & E2 & L2 & C2)]; [rewrite U in E; discriminate|]. rewrite E2 in E. cbn [bind] in E.
    destruct (fill_safe r2 (from_to a (b - 1)) Ok (fun i => Ok (i + 1)) (T (fun i => i + 1))) as [U|(r3 & E3 & L3 & C3)]; [rewrite U in E; discriminate|]. rewrite E3 in E. cbn [bind] in E.
    destruct (bput_ok r3 (b - 1) a ltac:(lia)) as (r4 & E4 & L4 & C4). rewrite E4 in E. injection E as ->. assert (Z0 : cell r 0 = None).
    { rewrite C4. replace (0 =? b - 1) with false by lia. rewrite C3 by (intros i x Ii [= <-]; apply in_from_to in Ii; lia). rewrite C2 by (intros i x Ii [= <-]; apply in_from_to in Ii; lia). rewrite C1 by (intros i x Ii [= <-]; apply in_from_to in Ii; lia). apply cell_new. }
    unfold pvalid in V. unfold blen in *. destruct (length r) as [|k] eqn:Lr; [lia|]. cbn [pvalid_from] in V. rewrite (bget_none r 0 Z0) in V. discriminate.
  - destruct (fill_safe (bnew n) (from_to 1 (b - 1)) Ok Ok (T (fun i => i))) as [U|(r1 & E1 & L1 & C1)]; [rewrite U in E; discriminate|]. rewrite E1 in E. cbn [bind] in E.
    destruct (Z.lt_ge_cases a n) as [La|La]; [rewrite (fill_bad r1 _ Ok Ok n n) in E; [discriminate|apply in_from_to; lia|reflexivity|lia|apply (T (fun i => i))]|].
    destruct (fill_safe r1 (from_to (a + 1) n) Ok Ok (T (fun i => i))) as [U|(r2 & E2 & L2 & C2)]; [rewrite U in E; discriminate|]. rewrite E2 in E. cbn [bind] in E.
    destruct (Z.eq_dec a b) as [<-|Nab].
    + destruct (fill_safe r2 (from_to (a + 1) a) Ok (fun i => Ok (i - 1)) (T (fun i => i - 1))) as [U|(r3 & E3 & L3 & C3)]; [rewrite U in E; discriminate|]. rewrite E3 in E. cbn [bind] in E.
      destruct (bput_ok r3 (a - 1) a ltac:(lia)) as (r4 & E4 & L4 & C4). rewrite E4 in E. injection E as ->. assert (Lr : Z.of_nat (length r) = n) by (unfold blen in *; lia).
      (* the last entry is n, which is not a position *)
      assert (G : forall k i seen, pvalid_from r seen i k = Ok true -> forall j, i <= j < i + Z.of_nat k -> exists v, cell r j = Some v /\ v <= n - 1).
      { clear - Lr. induction k as [|k IH]; intros i seen V j Hj; [lia|]. cbn [pvalid_from] in V. destruct (bget r i) as [v| |] eqn:Ev; cbn [bind] in V; try discriminate. destruct ((v <? 0) || (blen r - 1 <? v) || existsb (Z.eqb v) seen) eqn:B; [discriminate|].
        destruct (Z.eq_dec j i) as [->|Nj]; [|apply (IH (i + 1) (v :: seen) V); lia]. exists v. split; [|unfold blen in B; lia]. destruct (cell r i) as [w|] eqn:Ec; [apply bget_cell in Ec; congruence|apply bget_none in Ec; congruence]. }
      destruct (G (length r) 0 [] V (a - 1) ltac:(lia)) as (v & Ev & Bv). rewrite C4, Z.eqb_refl in Ev. injection Ev as <-. lia.
    + rewrite (fill_bad r2 _ Ok (fun i => Ok (i - 1)) a a) in E; [discriminate|apply in_from_to; lia|reflexivity|lia|apply (T (fun i => i - 1))].
Qed.
Print Assumptions C74_contiguous_cycle_refuted.
Example C74_case : ptransposition 4 1 3 = Ok (pz [0; 3; 2; 1]) /\ prandom 4 (fun i => nth (Z.to_nat i) [2; 0; 1; 0] 0) = Ok (pz [2; 0; 3; 1]) /\
  pcontiguous_cycle 4 0 4 = Ok (pz [1; 2; 3; 0]) /\ pcontiguous_cycle 4 1 3 = UB /\ pcontiguous_cycle 4 1 4 = Ok [None; Some 2; Some 3; Some 1].
Proof. repeat split. Qed.
