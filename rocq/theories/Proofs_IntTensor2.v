(* Proofs_IntTensor2.v -- integer tensors: growth, concatenation, comparison, rows. *)
From Coq Require Import ZArith List Bool Lia.
Import ListNotations.
From Verif Require Import Base BaseFacts Map Model_Index Model_Tensor Model_Containers Proofs_Containers Proofs_Containers2 Proofs_Sparse
  Model_IntTensor Spec_Index Proofs_Index Spec_IntTensor Proofs_IntTensor.
Local Open Scope Z_scope.

Lemma in_cons_inv ix n ds : in_range ix (n :: ds) -> exists i jx, ix = i :: jx /\ 0 <= i < n /\ in_range jx ds.
Proof. intro H. inversion H; subst. eauto. Qed.
Lemma in_nil_inv ix : in_range ix [] -> ix = [].
Proof. intro H. now inversion H. Qed.
Lemma sized_cons t n ds : sized t (n :: ds) -> zget (ns t) 0 = Ok (prod ds) /\ zget (nd t) 0 = Ok n /\ 0 <= n /\ nonneg ds.
Proof.
  intros (E1 & _ & P & E4 & _). rewrite E1, E4, strides_of_cons, !zget0, Z.mul_1_l. inversion P; subst. auto.
Qed.
Lemma capacity_ok t n ds : sized t (n :: ds) -> 0 < prod ds -> nt_capacity t = Ok (nmem t / prod ds).
Proof.
  intros S H. destruct (sized_cons _ _ _ S) as (Z1 & Z2 & Hn & P). destruct S as (_ & _ & _ & _ & B & _). rewrite prod_cons in B. unfold nt_capacity, cdiv. rewrite Z1. cbn [bind].
  replace (prod ds =? 0) with false by lia. rewrite Z.quot_div_nonneg by nia. reflexivity.
Qed.
Lemma capacity_flat t n ds : sized t (n :: ds) -> prod ds = 0 -> nt_capacity t = UB.
Proof. intros S H. destruct (sized_cons _ _ _ S) as (Z1 & _). unfold nt_capacity, cdiv. rewrite Z1, H. reflexivity. Qed.
Lemma reserve_sized t n ds k : sized t (n :: ds) -> 0 < prod ds -> exists t', nt_reserve k t = Ok t' /\ sized t' (n :: ds) /\ k * prod ds <= nmem t' /\ nmem t <= nmem t' /\
  (forall i, 0 <= i < n * prod ds -> cell (narr t') i = cell (narr t) i) /\ (nmem t < k * prod ds -> nmem t' = k * prod ds).
Proof.
  intros S H. pose proof (sized_cons _ _ _ S) as (Z1 & Z2 & Hn & P). unfold nt_reserve. rewrite (capacity_ok _ _ _ S H). cbn [bind]. pose proof S as (E1 & E2 & E3 & E4 & B1 & B2). rewrite prod_cons in B1.
  pose proof (Z.mul_div_le (nmem t) (prod ds) ltac:(lia)). pose proof (Z.mul_succ_div_gt (nmem t) (prod ds) ltac:(lia)).
  destruct (k <=? nmem t / prod ds) eqn:E.
  - exists t. split; [reflexivity|]. split; [exact S|]. split; [nia|]. split; [lia|]. split; [reflexivity|nia].
  - rewrite Z1. cbn [bind]. assert (0 <= nmem t / prod ds) by (apply Z.div_pos; nia). assert (nmem t < k * prod ds) by nia. replace (k * prod ds =? 0) with false by nia.
    rewrite (size_ok _ _ S), prod_cons. cbn [bind].
    destruct (bcopy_ok (narr t) (n * prod ds) (narray (k * prod ds)) 0) as (b & -> & L & C); [nia|lia|rewrite blen_narray; nia|]. cbn [bind]. rewrite blen_narray in L.
    eexists. split; [reflexivity|]. unfold sized. cbn [nd ns nmem narr]. rewrite prod_cons. split; [repeat split; auto; lia|]. split; [lia|]. split; [lia|]. split; [|lia].
    intros i Hi. rewrite C. replace (0 <=? i) with true by lia. replace (i <? 0 + n * prod ds) with true by lia. cbn. now rewrite Z.sub_0_r.
Qed.
Lemma has_same_cells t t' n ds f : has t (n :: ds) f -> sized t' (n :: ds) -> (forall i, 0 <= i < n * prod ds -> cell (narr t') i = cell (narr t) i) -> has t' (n :: ds) f.
Proof.
  intros H S C. apply has_cells in H. destruct H as [_ H]. apply has_cells. split; [exact S|]. intros ix I. pose proof (flat_range _ _ I) as F. rewrite prod_cons in F. rewrite C by lia. now apply H.
Qed.
Lemma reserve_ok t n ds f k : has t (n :: ds) f -> 0 < prod ds -> exists t', nt_reserve k t = Ok t' /\ has t' (n :: ds) f /\ k * prod ds <= nmem t' /\ nmem t <= nmem t'.
Proof.
  intros H P. destruct (reserve_sized t n ds k (proj1 H) P) as (t' & E & S & A & B & C & _). exists t'. split; [exact E|]. split; [now apply (has_same_cells t)|auto].
Qed.
Lemma setd0_sized t n ds k : sized t (n :: ds) -> 0 <= k -> k * prod ds <= nmem t -> exists t', nt_setd0 k t = Ok t' /\ sized t' (k :: ds) /\ nmem t' = nmem t /\ narr t' = narr t.
Proof.
  intros (E1 & E2 & E3 & E4 & B1 & B2) Hk Hm. unfold nt_setd0. rewrite E1. eexists. split; [reflexivity|]. unfold sized. cbn [nd ns nmem narr]. rewrite E4, !strides_of_cons, prod_cons.
  inversion E3; subst. repeat split; auto; try discriminate. constructor; assumption.
Qed.
Lemma resize_ok t n ds f k : has t (n :: ds) f -> 0 < prod ds -> n <= k -> exists t', nt_resize k t = Ok t' /\ sized t' (k :: ds) /\
  (forall ix, in_range ix (n :: ds) -> nt_get t' ix = Ok (f ix)).
Proof.
  intros H P Hk. pose proof (proj1 H) as S. destruct (sized_cons _ _ _ S) as (Z1 & Z2 & Hn & Pd). unfold nt_resize. rewrite Z2. cbn [bind]. replace (n <=? k) with true by lia. cbn [assrt].
  rewrite (capacity_ok _ _ _ S P). cbn [bind].
  assert (X : exists t1, (if nmem t / prod ds <? k then nt_reserve k t else Ok t) = Ok t1 /\ has t1 (n :: ds) f /\ k * prod ds <= nmem t1).
  { destruct (nmem t / prod ds <? k) eqn:E.
    - destruct (reserve_ok t n ds f k H P) as (t1 & E1 & H1 & A & _). eauto.
    - exists t. split; [reflexivity|]. split; [exact H|]. pose proof (Z.mul_div_le (nmem t) (prod ds) ltac:(lia)). nia. }
  destruct X as (t1 & -> & H1 & A). cbn [bind]. destruct (setd0_sized t1 n ds k (proj1 H1) ltac:(lia) A) as (t2 & -> & S2 & M2 & A2). exists t2. split; [reflexivity|]. split; [exact S2|].
  intros ix I. apply has_cells in H1. destruct H1 as [_ C]. pose proof (in_range_length _ _ I) as L. destruct S2 as (_ & _ & _ & Es & _).
  rewrite (get_flat t2 (k :: ds)) by (auto; cbn in *; lia). apply bget_cell. rewrite A2. specialize (C ix I). destruct ix; [discriminate|]. exact C.
Qed.

Lemma combine_same l : forallb (fun p => fst p =? snd p) (combine l l) = true.
Proof. induction l as [|a l IH]; [reflexivity|]. cbn. now rewrite Z.eqb_refl. Qed.
Lemma combine_eq l m : length l = length m -> forallb (fun p => fst p =? snd p) (combine l m) = true -> l = m.
Proof.
  revert m. induction l as [|a l IH]; intros [|b m] L H; try discriminate; [reflexivity|]. cbn in H. apply andb_prop in H. destruct H. f_equal; [lia|]. apply IH; auto.
Qed.
Lemma push_cells t x n ds f g : has t (n :: ds) f -> has x ds g -> 0 < prod ds -> exists t', nt_push_slice x t = Ok t' /\
  has t' (n + 1 :: ds) (fun ix => if hd 0 ix =? n then g (tl ix) else f ix) /\ (nmem t = n * prod ds -> nmem t' = 2 * (n + 1) * prod ds) /\
  (nmem t = n * prod ds -> cell (narr t') ((n + 1) * prod ds) = None).
Proof.
  intros H X P. pose proof (proj1 H) as S. pose proof S as (E1 & E2 & E3 & E4 & B1 & B2). pose proof (proj1 X) as Sx. pose proof Sx as (F1 & F2 & F3 & F4 & F5 & F6).
  destruct (sized_cons _ _ _ S) as (Z1 & Z2 & Hn & Pd). unfold nt_push_slice. rewrite E1, F1. cbn [length tl]. rewrite Nat.eqb_refl. cbn [assrt]. rewrite combine_same. cbn [assrt].
  rewrite (capacity_ok _ _ _ S P). cbn [bind]. rewrite zget0. cbn [bind].
  assert (Y : exists t1, (if nmem t / prod ds <? n + 1 then nt_reserve (2 * (n + 1)) t else Ok t) = Ok t1 /\ has t1 (n :: ds) f /\ (n + 1) * prod ds <= nmem t1 /\
    (nmem t = n * prod ds -> nmem t1 = 2 * (n + 1) * prod ds) /\ (nmem t = n * prod ds -> cell (narr t1) ((n + 1) * prod ds) = None)).
  { pose proof (Z.mul_div_le (nmem t) (prod ds) ltac:(lia)). destruct (nmem t / prod ds <? n + 1) eqn:E.
    - destruct (reserve_sized t n ds (2 * (n + 1)) S P) as (t1 & R1 & S1 & A & _ & C & M). exists t1. split; [exact R1|]. split; [now apply (has_same_cells t)|]. split; [nia|]. split; [nia|].
      intro Em. unfold nt_reserve in R1. rewrite (capacity_ok _ _ _ S P) in R1. cbn [bind] in R1. replace (2 * (n + 1) <=? nmem t / prod ds) with false in R1 by lia. rewrite Z1 in R1. cbn [bind] in R1.
      replace (2 * (n + 1) * prod ds =? 0) with false in R1 by nia. rewrite (size_ok _ _ S), prod_cons in R1. cbn [bind] in R1.
      destruct (bcopy_ok (narr t) (n * prod ds) (narray (2 * (n + 1) * prod ds)) 0) as (b & Eb & L & Cb); [rewrite prod_cons in B1; nia|lia|rewrite blen_narray; nia|]. rewrite Eb in R1. cbn in R1. injection R1 as <-. cbn [narr].
      rewrite Cb. replace ((n + 1) * prod ds <? 0 + n * prod ds) with false by nia. rewrite andb_false_r. apply cell_narray.
    - exists t. split; [reflexivity|]. split; [exact H|]. split; [nia|]. split; [|].
      + intro Em. rewrite Em, Z.div_mul in E by lia. lia.
      + intro Em. rewrite Em, Z.div_mul in E by lia. lia. }
  destruct Y as (t1 & -> & H1 & A & M1 & U1). cbn [bind].
  destruct (setd0_sized t1 n ds (n + 1) (proj1 H1) ltac:(lia) A) as (t2 & -> & S2 & M2 & A2). cbn [bind]. destruct (sized_cons _ _ _ S2) as (Z3 & _). rewrite Z3. cbn [bind].
  pose proof S2 as (D1 & D2 & D3 & D4 & D5 & D6). rewrite prod_cons in D5.
  destruct (bcopy_ok (narr x) (prod ds) (narr t2) (n * prod ds)) as (b & -> & L & C); [lia|nia|nia|]. cbn [bind]. eexists. split; [reflexivity|]. cbn [nmem narr]. split; [|split].
  - apply has_cells. unfold sized. cbn [nd ns nmem narr]. rewrite L, prod_cons. split; [repeat split; auto|]. intros ix I. apply in_cons_inv in I; destruct I as (i & jx & -> & Hi & J). cbn [flat hd tl].
    pose proof (flat_range _ _ J) as F. rewrite C. destruct (i =? n) eqn:Ei.
    + replace i with n by lia. replace (n * prod ds <=? n * prod ds + flat jx ds) with true by lia. replace (n * prod ds + flat jx ds <? n * prod ds + prod ds) with true by lia. cbn [andb].
      replace (n * prod ds + flat jx ds - n * prod ds) with (flat jx ds) by lia. apply has_cells in X. now apply X.
    + replace (n * prod ds <=? i * prod ds + flat jx ds) with false by nia. cbn [andb]. rewrite A2. apply has_cells in H1. apply (proj2 H1 (i :: jx)). constructor; [lia|exact J].
  - intro Em. rewrite M2. auto.
  - intro Em. rewrite C. replace ((n + 1) * prod ds <? n * prod ds + prod ds) with false by lia. rewrite andb_false_r, A2. auto.
Qed.

(* stacks of blocks *)
Lemma has_ext t dims f g : has t dims f -> (forall ix, in_range ix dims -> f ix = g ix) -> has t dims g.
Proof. intros [S H] E. split; [exact S|]. intros ix I. rewrite <- E by assumption. now apply H. Qed.
Lemma pushes_ok ds xs gs : 0 < prod ds -> Forall2 (fun x g => has x ds g) xs gs -> forall t n f, has t (n :: ds) f ->
  exists t', foldM nt_push_slice xs t = Ok t' /\ has t' (n + Z.of_nat (length xs) :: ds) (stacked ((n, f) :: map one_row gs)).
Proof.
  intros P F. induction F as [|x g xs gs Hx F IH]; intros t n f H.
  - exists t. split; [reflexivity|]. cbn [length]. replace (n + Z.of_nat 0) with n by lia. apply (has_ext t _ f); [exact H|]. intros ix I. apply in_cons_inv in I; destruct I as (i & jx & -> & Hi & J). cbn. now replace (i <? n) with true by lia.
  - cbn [foldM]. destruct (push_cells t x n ds f g H Hx P) as (t1 & -> & H1 & _). cbn [bind]. destruct (IH t1 (n + 1) _ H1) as (t2 & -> & H2). exists t2. split; [reflexivity|].
    replace (n + Z.of_nat (length (x :: xs))) with (n + 1 + Z.of_nat (length xs)) by (cbn [length]; lia). apply (has_ext t2 _ _ _ H2). intros ix I. apply in_cons_inv in I; destruct I as (i & jx & -> & Hi & J).
    cbn [map]. change (stacked ((n + 1, fun ix => if hd 0 ix =? n then g (tl ix) else f ix) :: map one_row gs) (i :: jx)) with (if i <? n + 1 then (if i =? n then g jx else f (i :: jx)) else stacked (map one_row gs) (i - (n + 1) :: jx)).
    change (stacked ((n, f) :: one_row g :: map one_row gs) (i :: jx)) with (if i <? n then f (i :: jx) else if i - n <? 1 then g jx else stacked (map one_row gs) (i - n - 1 :: jx)).
    destruct (i <? n + 1) eqn:E1; destruct (i <? n) eqn:E2; destruct (i - n <? 1) eqn:E3; destruct (i =? n) eqn:E4; try lia; try reflexivity; do 2 f_equal; lia.
Qed.

(* concatenation *)
Lemma cat_sum ds ps : forall l acc, Forall2 (fun p q => has p (fst q :: ds) (snd q)) ps l ->
  foldM (fun p n => do d <- zget (nd p) 0; Ok (n + d)) ps acc = Ok (acc + heights l).
Proof.
  induction ps as [|p ps IH]; intros l acc F; inversion F as [|p' [n f] ps' l' Hp F']; subst; [cbn; f_equal; lia|]. cbn [foldM]. destruct (sized_cons _ _ _ (proj1 Hp)) as (_ & -> & _). cbn [bind fst].
  rewrite (IH l') by assumption. f_equal. change (heights ((n, f) :: l')) with (n + heights l'). lia.
Qed.
Lemma heights_nonneg ds ps l : Forall2 (fun p q => has p (fst q :: ds) (snd q)) ps l -> 0 <= heights l /\ Forall (fun p => 0 <= fst p) l.
Proof.
  induction 1 as [|p [n f] ps l Hp F [IH1 IH2]]; [split; [cbn; lia|constructor]|]. destruct (sized_cons _ _ _ (proj1 Hp)) as (_ & _ & Hn & _). cbn in Hn. change (heights ((n, f) :: l)) with (n + heights l). split; [lia|]. constructor; assumption.
Qed.
Lemma cat_copy ds : nonneg ds -> forall ps l b o, Forall2 (fun p q => has p (fst q :: ds) (snd q)) ps l -> 0 <= o -> o + heights l * prod ds <= blen b ->
  exists b', foldM (fun p '(b, o) => do b <- bcopy (narr p) (asize (nd p)) b o; Ok (b, o + asize (nd p))) ps (b, o) = Ok (b', o + heights l * prod ds) /\ blen b' = blen b /\
   (forall k, k < o -> cell b' k = cell b k) /\ (forall k, o + heights l * prod ds <= k -> cell b' k = cell b k) /\
   forall ix, in_range ix (heights l :: ds) -> cell b' (o + flat ix (heights l :: ds)) = Some (stacked l ix).
Proof.
  intros Pd. pose proof (prod_nonneg _ Pd) as PP. induction ps as [|p ps IH]; intros l b o F Ho Hb.
  - inversion F; subst. exists b. cbn [foldM heights fold_right]. split; [f_equal; f_equal; lia|]. split; [reflexivity|]. split; [reflexivity|]. split; [reflexivity|].
    intros ix I. inversion I. lia.
  - inversion F as [|p' [n f] ps' l' Hp F']; subst. destruct (heights_nonneg _ _ _ F') as [Hl Fl]. cbn [fst snd] in Hp.
    pose proof (proj1 Hp) as (E1 & E2 & E3 & E4 & E5 & E6). destruct (sized_cons _ _ _ (proj1 Hp)) as (_ & _ & Hn & _). rewrite prod_cons in E5. change (heights ((n, f) :: l')) with (n + heights l') in *.
    cbn [foldM]. rewrite E1, asize_prod, prod_cons. destruct (bcopy_ok (narr p) (n * prod ds) b o) as (b1 & -> & L1 & C1); [nia|lia|nia|]. cbn [bind].
    destruct (IH l' b1 (o + n * prod ds) F') as (b2 & -> & L2 & Lo & Hi2 & C2); [nia|rewrite L1; nia|]. exists b2. split; [f_equal; f_equal; lia|]. split; [congruence|]. split; [|split].
    + intros k Hk. rewrite Lo by nia. rewrite C1. replace (o <=? k) with false by lia. reflexivity.
    + intros k Hk. rewrite Hi2 by lia. rewrite C1. replace (k <? o + n * prod ds) with false by nia. now rewrite andb_false_r.
    + intros ix I. apply in_cons_inv in I; destruct I as (i & jx & -> & Hi & J). pose proof (flat_range _ _ J) as FJ. cbn [flat stacked]. destruct (i <? n) eqn:Ei.
      * rewrite Lo by nia. rewrite C1. replace (o <=? o + (i * prod ds + flat jx ds)) with true by nia. replace (o + (i * prod ds + flat jx ds) <? o + n * prod ds) with true by nia. cbn [andb].
        replace (o + (i * prod ds + flat jx ds) - o) with (flat (i :: jx) (n :: ds)) by (cbn [flat]; lia). apply has_cells in Hp. apply (proj2 Hp). constructor; [lia|exact J].
      * specialize (C2 (i - n :: jx) ltac:(constructor; [lia|exact J])). cbn [flat] in C2. rewrite <- C2. f_equal. lia.
Qed.
Lemma ntcat_ok ds ps l : ps <> [] -> Forall2 (fun p q => has p (fst q :: ds) (snd q)) ps l ->
  exists t, nt_cat ps = Ok t /\ has t (heights l :: ds) (stacked l) /\ trim t.
Proof.
  intros N F. unfold nt_cat. replace (0 <? Z.of_nat (length ps)) with true by (destruct ps; [contradiction|cbn [length]; lia]). cbn [assrt]. rewrite (cat_sum ds ps l 0 F). cbn [bind]. rewrite Z.add_0_l.
  destruct ps as [|p ps]; [contradiction|]. rewrite zget0. cbn [bind]. inversion F as [|p' [n f] ps' l' Hp F']; subst. cbn [fst snd] in Hp. pose proof (proj1 Hp) as (E1 & E2 & E3 & E4 & E5 & E6). rewrite E1. cbn [bind].
  destruct (sized_cons _ _ _ (proj1 Hp)) as (_ & _ & Hn & Pd). destruct (heights_nonneg _ _ _ F) as [Hl Fl]. set (L := (n, f) :: l') in *.
  assert (PD : nonneg (heights L :: ds)) by (constructor; assumption). destruct (new_ok (heights L :: ds) ltac:(discriminate) PD) as (R & -> & S & M & A). cbn [bind].
  pose proof (prod_nonneg _ Pd). assert (BR : 0 + heights L * prod ds <= blen (narr R)) by (rewrite A, blen_narray, prod_cons; lia).
  destruct (cat_copy ds Pd (p :: ps) L (narr R) 0 F ltac:(lia) BR) as (b & -> & Lb & _ & _ & C). cbn [bind]. eexists. split; [reflexivity|]. destruct S as (D1 & D2 & D3 & D4 & D5). split; [|unfold trim; cbn [nd nmem]; congruence].
  apply has_cells. unfold sized. cbn [nd ns nmem narr]. rewrite Lb. split; [repeat split; auto; lia|]. intros ix I. rewrite <- (C ix I). f_equal.
Qed.
(* two tensors with slices of different sizes *)
Lemma cat_overrun p q n m ds es f g : has p (n :: ds) f -> has q (m :: es) g -> 0 < m -> prod ds < prod es -> 0 < (n + m) * prod ds -> nt_cat [p; q] = UB.
Proof.
  intros Hp Hq Hm Hd Hs. unfold nt_cat. cbn [length]. change (0 <? Z.of_nat 2) with true. cbn [assrt foldM]. destruct (sized_cons _ _ _ (proj1 Hp)) as (_ & -> & Hn & Pd). destruct (sized_cons _ _ _ (proj1 Hq)) as (_ & -> & _ & Pe).
  cbn [bind]. rewrite zget0. cbn [bind]. pose proof (proj1 Hp) as (E1 & E2 & E3 & E4 & E5 & E6). pose proof (proj1 Hq) as (F1 & F2 & F3 & F4 & F5 & F6). rewrite E1. cbn [bind].
  replace (0 + n + m) with (n + m) by lia.
  destruct (new_ok (n + m :: ds) ltac:(discriminate) ltac:(constructor; [lia|assumption])) as (R & -> & S & M & A). cbn [bind foldM]. rewrite F1, !asize_prod, !prod_cons.
  pose proof (prod_nonneg _ Pd). rewrite prod_cons in E5, F5. assert (BR : blen (narr R) = (n + m) * prod ds) by (rewrite A, blen_narray, prod_cons; lia).
  destruct (bcopy_ok (narr p) (n * prod ds) (narr R) 0) as (b & -> & L & C); [nia|lia|rewrite BR; nia|]. cbn [bind]. rewrite Z.add_0_l. unfold bcopy at 1. rewrite L, BR.
  replace (n * prod ds + m * prod es <=? (n + m) * prod ds) with false by nia. rewrite andb_false_r. replace (m * prod es =? 0) with false by nia. reflexivity.
Qed.
Lemma cat_holes p q n m ds es f g : has p (n :: ds) f -> has q (m :: es) g -> 0 < m -> prod es < prod ds -> positive ds ->
  exists t ix, nt_cat [p; q] = Ok t /\ nd t = n + m :: ds /\ in_range ix (n + m :: ds) /\ nt_get t ix = UB.
Proof.
  intros Hp Hq Hm Hd Pos. unfold nt_cat. cbn [length]. change (0 <? Z.of_nat 2) with true. cbn [assrt foldM]. destruct (sized_cons _ _ _ (proj1 Hp)) as (_ & -> & Hn & Pd). destruct (sized_cons _ _ _ (proj1 Hq)) as (_ & -> & _ & Pe).
  cbn [bind]. rewrite zget0. cbn [bind]. pose proof (proj1 Hp) as (E1 & E2 & E3 & E4 & E5 & E6). pose proof (proj1 Hq) as (F1 & F2 & F3 & F4 & F5 & F6). rewrite E1. cbn [bind].
  replace (0 + n + m) with (n + m) by lia. assert (PD : nonneg (n + m :: ds)) by (constructor; [lia|assumption]).
  destruct (new_ok (n + m :: ds) ltac:(discriminate) PD) as (R & -> & S & M & A). cbn [bind foldM]. rewrite F1, !asize_prod, !prod_cons.
  pose proof (prod_nonneg _ Pd). pose proof (prod_nonneg _ Pe). rewrite prod_cons in E5, F5. assert (BR : blen (narr R) = (n + m) * prod ds) by (rewrite A, blen_narray, prod_cons; nia).
  destruct (bcopy_ok (narr p) (n * prod ds) (narr R) 0) as (b & -> & L & C); [nia|lia|rewrite BR; nia|]. cbn [bind]. rewrite Z.add_0_l.
  destruct (bcopy_ok (narr q) (m * prod es) b (n * prod ds)) as (b2 & -> & L2 & C2); [nia|nia|rewrite L, BR; nia|]. cbn [bind].
  destruct (flat_onto (n + m :: ds) ((n + m) * prod ds - 1) PD) as (ix & I & Ef); [rewrite prod_cons; nia|].
  eexists. exists ix. split; [reflexivity|]. destruct S as (D1 & D2 & D3 & D4 & D5). split; [exact D1|]. split; [exact I|].
  rewrite (get_flat _ (n + m :: ds)) by (auto; now apply in_range_length). cbn [narr]. apply bget_none. rewrite Ef, C2.
  replace ((n + m) * prod ds - 1 <? n * prod ds + m * prod es) with false by nia. rewrite andb_false_r, C. replace ((n + m) * prod ds - 1 <? 0 + n * prod ds) with false by nia. rewrite andb_false_r, A. apply cell_narray.
Qed.

(* comparison *)
Lemma beq_ok x y : forall n i, (forall k, i <= k < i + Z.of_nat n -> exists v, cell x k = Some v) -> (forall k, i <= k < i + Z.of_nat n -> exists v, cell y k = Some v) ->
  exists b, beq_upto n i x y = Ok b /\ (b = true <-> forall k, i <= k < i + Z.of_nat n -> cell x k = cell y k).
Proof.
  induction n as [|n IH]; intros i Hx Hy.
  - exists true. split; [reflexivity|]. split; [|reflexivity]. intros _ k Hk. lia.
  - cbn [beq_upto]. destruct (Hx i ltac:(lia)) as [a Ha]. destruct (Hy i ltac:(lia)) as [b Hb]. rewrite (bget_cell _ _ _ Ha), (bget_cell _ _ _ Hb). cbn [bind]. destruct (a =? b) eqn:E.
    + destruct (IH (i + 1)) as (r & -> & Hr); [intros; apply Hx; lia|intros; apply Hy; lia|]. exists r. split; [reflexivity|]. rewrite Hr. split; intros H k Hk; [|apply H; lia].
      destruct (Z.eq_dec k i) as [->|]; [rewrite Ha, Hb; f_equal; lia|apply H; lia].
    + exists false. split; [reflexivity|]. split; [discriminate|]. intro H. specialize (H i ltac:(lia)). rewrite Ha, Hb in H. injection H as H. lia.
Qed.
Lemma eq_ok x y dx dy f g : has x dx f -> has y dy g -> trim x -> trim y -> exists b, nt_eq x y = Ok b /\ (b = true <-> dx = dy /\ forall ix, in_range ix dx -> f ix = g ix).
Proof.
  intros Hx Hy Tx Ty. pose proof (proj1 Hx) as (E1 & E2 & E3 & E4 & E5). pose proof (proj1 Hy) as (F1 & F2 & F3 & F4 & F5). unfold nt_eq. rewrite E1, F1.
  destruct (list_eq_dec Z.eq_dec dx dy) as [<-|D]; [|exists false; split; [reflexivity|]; split; [discriminate|intros []; contradiction]].
  unfold trim in *. rewrite E1 in Tx. rewrite F1 in Ty. rewrite Tx, Ty, Z.eqb_refl. pose proof (prod_nonneg _ E3).
  destruct (beq_ok (narr x) (narr y) (Z.to_nat (prod dx)) 0) as (b & -> & Hb); [intros; apply (cells_set _ _ _ Hx); lia|intros; apply (cells_set _ _ _ Hy); lia|].
  exists b. split; [reflexivity|]. rewrite Hb. apply has_cells in Hx, Hy. split.
  - intro H'. split; [reflexivity|]. intros ix I. pose proof (flat_range _ _ I). specialize (H' (flat ix dx) ltac:(lia)). rewrite (proj2 Hx), (proj2 Hy) in H' by assumption. congruence.
  - intros [_ H'] k Hk. destruct (flat_onto dx k E3) as (ix & I & <-); [lia|]. rewrite (proj2 Hx), (proj2 Hy) by assumption. f_equal. auto.
Qed.
Lemma eq_capacity x y : nd x = nd y -> nmem x <> nmem y -> nt_eq x y = Ok false.
Proof. intros E N. unfold nt_eq. destruct (list_eq_dec Z.eq_dec (nd x) (nd y)); [|reflexivity]. now replace (nmem x =? nmem y) with false by lia. Qed.
Lemma pushed_copy t x n ds f g : has t (n :: ds) f -> trim t -> has x ds g -> 0 < prod ds ->
  exists t1 t2, nt_push_slice x t = Ok t1 /\ nt_copy t1 = Ok t2 /\ nt_eq t1 t2 = Ok false /\ nt_eq t1 t1 = UB.
Proof.
  intros H T X P. unfold trim in T. pose proof (proj1 H) as (E1 & _). rewrite E1, prod_cons in T. destruct (sized_cons _ _ _ (proj1 H)) as (_ & _ & Hn & _).
  destruct (push_cells t x n ds f g H X P) as (t1 & E & H1 & M & U). destruct (copy_ok _ _ _ H1) as (t2 & C & H2 & T2). exists t1, t2. split; [exact E|]. split; [exact C|].
  pose proof (proj1 H1) as (D1 & _). pose proof (proj1 H2) as (G1 & _). unfold trim in T2. rewrite G1, prod_cons in T2. specialize (M T). specialize (U T). split.
  - apply eq_capacity; [congruence|]. nia.
  - unfold nt_eq. destruct (list_eq_dec Z.eq_dec (nd t1) (nd t1)); [|contradiction]. rewrite Z.eqb_refl, M.
    assert (Q : forall k i, 0 <= i -> i + Z.of_nat k = (n + 1) * prod ds -> forall r, beq_upto (k + S r) i (narr t1) (narr t1) = UB).
    { induction k as [|k IH]; intros i Hi Hk r.
      - cbn [Nat.add beq_upto]. replace i with ((n + 1) * prod ds) by lia. rewrite (bget_none _ _ U). reflexivity.
      - cbn [Nat.add beq_upto]. destruct (cells_set _ _ _ H1 i) as [v V]; [rewrite prod_cons; lia|]. rewrite (bget_cell _ _ _ V). cbn [bind]. rewrite Z.eqb_refl. apply IH; lia. }
    replace (Z.to_nat (2 * (n + 1) * prod ds)) with (Z.to_nat ((n + 1) * prod ds) + S (Z.to_nat ((n + 1) * prod ds) - 1))%nat by nia. apply Q; nia.
Qed.

(* whole-tensor assignments *)
Lemma set_from_ok rc x t dims f : sized t dims -> has x dims f -> exists t', nt_set_from rc x t = Ok t' /\ has t' dims f /\ nmem t' = nmem t.
Proof.
  intros S X. pose proof S as (E1 & E2 & E3 & E4 & E5). pose proof (proj1 X) as (F1 & F2 & F3 & F4 & F5). unfold nt_set_from. rewrite E1, F1. destruct (list_eq_dec Z.eq_dec dims dims); [|contradiction].
  cbn [negb]. rewrite andb_false_r, (size_ok _ _ S). cbn [bind]. pose proof (prod_nonneg _ E3). destruct (bcopy_ok (narr x) (prod dims) (narr t) 0) as (b & -> & L & C); [lia|lia|lia|]. cbn [bind].
  eexists. split; [reflexivity|]. split; [|reflexivity]. apply has_cells. unfold sized. cbn [nd ns nmem narr]. rewrite L. split; [auto|]. intros ix I. pose proof (flat_range _ _ I). rewrite C.
  replace (0 <=? flat ix dims) with true by lia. replace (flat ix dims <? 0 + prod dims) with true by lia. cbn. rewrite Z.sub_0_r. apply has_cells in X. now apply X.
Qed.
Lemma set_from_refused x t : nd x <> nd t -> nt_set_from true x t = Throw.
Proof. intro N. unfold nt_set_from. destruct (list_eq_dec Z.eq_dec (nd x) (nd t)); [contradiction|reflexivity]. Qed.
Lemma set_from_short x t dims : sized t dims -> blen (narr x) < prod dims -> nt_set_from false x t = UB.
Proof.
  intros S H. unfold nt_set_from. cbn [andb]. rewrite (size_ok _ _ S). cbn [bind]. unfold bcopy. replace (prod dims <=? blen (narr x)) with false by lia. rewrite andb_false_r. cbn [andb].
  pose proof (blen_nonneg (narr x)). now replace (prod dims =? 0) with false by lia.
Qed.
Lemma set_zero_ok t dims : sized t dims -> exists t', nt_set_zero t = Ok t' /\ has t' dims (fun _ => 0) /\ nmem t' = nmem t.
Proof.
  intro S. pose proof S as (E1 & E2 & E3 & E4 & E5). unfold nt_set_zero. rewrite (size_ok _ _ S). cbn [bind]. pose proof (prod_nonneg _ E3). destruct (fill_ok (fun _ => 0) (prod dims) (narr t)) as (b & -> & L & C); [lia|]. cbn [bind].
  eexists. split; [reflexivity|]. split; [|reflexivity]. apply has_cells. unfold sized. cbn [nd ns nmem narr]. rewrite L. split; [auto|]. intros ix I. pose proof (flat_range _ _ I). rewrite C.
  replace (0 <=? flat ix dims) with true by lia. now replace (flat ix dims <? prod dims) with true by lia.
Qed.

(* rows *)
Lemma in2 i j n m : 0 <= i < n -> 0 <= j < m -> in_range [i; j] [n; m].
Proof. intros. repeat constructor; lia. Qed.
Lemma mapM_okz {A B} (f : A -> res B) g l : (forall a, In a l -> f a = Ok (g a)) -> mapM f l = Ok (map g l).
Proof. induction l as [|a l IH]; intro H; [reflexivity|]. cbn. rewrite H by now left. cbn. rewrite IH; [reflexivity|]. intros; apply H; now right. Qed.
Lemma row_from_ok rc t n m f i beg : has t [n; m] f -> 0 <= i < n -> 0 <= beg <= m -> nt_row_from rc t i beg = Ok (map (fun j => f [i; j + beg]) (zrange (m - beg))).
Proof.
  intros H Hi Hb. pose proof (proj1 H) as (E1 & _). unfold nt_row_from. rewrite E1.
  assert (X : (if rc then if negb (length [n; m] =? 2)%nat then Ok true else nt_outside [i] [n; m] else Ok false) = Ok false).
  { destruct rc; [|reflexivity]. cbn. replace (i <? 0) with false by lia. now replace (n <=? i) with false by lia. }
  rewrite X. cbn [bind]. change (zget [n; m] 1) with (Ok m). cbn [bind]. replace (m - beg <? 0) with false by lia. apply mapM_okz. intros j Hj. apply in_zrange in Hj.
  apply (geti_ok rc t [n; m]); [exact H|apply in2; lia|right; discriminate].
Qed.
Lemma row_from_long rc t n m f i beg : has t [n; m] f -> 0 <= i < n -> m < beg -> nt_row_from rc t i beg = Throw.
Proof.
  intros H Hi Hb. pose proof (proj1 H) as (E1 & _). unfold nt_row_from. rewrite E1.
  assert (X : (if rc then if negb (length [n; m] =? 2)%nat then Ok true else nt_outside [i] [n; m] else Ok false) = Ok false).
  { destruct rc; [|reflexivity]. cbn. replace (i <? 0) with false by lia. now replace (n <=? i) with false by lia. }
  rewrite X. cbn [bind]. change (zget [n; m] 1) with (Ok m). cbn [bind]. now replace (m - beg <? 0) with true by lia.
Qed.
Lemma row_outside t n m i beg : nd t = [n; m] -> ~ (0 <= i < n) -> nt_row_from true t i beg = Throw.
Proof.
  intros E N. unfold nt_row_from. rewrite E. cbn [length Nat.eqb negb]. assert (X : nt_outside [i] [n; m] = Ok true).
  { cbn. destruct (i <? 0) eqn:A; [reflexivity|]. now replace (n <=? i) with true by lia. }
  now rewrite X.
Qed.
Lemma set_row_fold rc n m i : 0 <= i < n -> forall l t f o, has t [n; m] f -> 0 <= o -> o + Z.of_nat (length l) <= m ->
  exists t', foldM (fun x '(t, j) => do t <- nt_seti rc [i; j] x t; Ok (t, j + 1)) l (t, o) = Ok (t', o + Z.of_nat (length l)) /\ has t' [n; m] (row_put f i o l) /\ nmem t' = nmem t.
Proof.
  intro Hi. induction l as [|x l IH]; intros t f o H Ho Hl.
  - exists t. cbn [foldM length]. split; [do 2 f_equal; lia|]. split; [|reflexivity]. apply (has_ext t _ f); [exact H|]. intros ix I. apply in_cons_inv in I; destruct I as (a & jx & -> & Ha & J). apply in_cons_inv in J; destruct J as (b & kx & -> & Hb & K). apply in_nil_inv in K; subst kx.
    cbn [row_put length]. destruct ((a =? i) && (o <=? b) && (b <? o + Z.of_nat 0)) eqn:E; [lia|reflexivity].
  - cbn [foldM]. cbn [length] in Hl. rewrite (seti_ok rc t [n; m] [i; o] x (proj1 H) (in2 i o n m ltac:(lia) ltac:(lia)) ltac:(right; discriminate)).
    destruct (set_has t [n; m] f [i; o] x H ltac:(apply in2; lia)) as (t1 & -> & H1 & M1). cbn [bind]. destruct (IH t1 _ (o + 1) H1) as (t2 & E2 & H2 & M2); [lia|lia|].
    rewrite E2. exists t2. split; [do 2 f_equal; cbn [length]; lia|]. split; [|congruence]. apply (has_ext t2 _ _ _ H2). intros ix I. apply in_cons_inv in I; destruct I as (a & jx & -> & Ha & J). apply in_cons_inv in J; destruct J as (b & kx & -> & Hb & K). apply in_nil_inv in K; subst kx.
    cbn [row_put length]. unfold upd. destruct (list_eq_dec Z.eq_dec [a; b] [i; o]) as [Q|Q].
    + injection Q as -> ->. replace (o + 1 <=? o) with false by lia. rewrite andb_false_r. cbn [andb]. rewrite Z.eqb_refl. replace (o <=? o) with true by lia. replace (o <? o + Z.of_nat (S (length l))) with true by lia. cbn [andb]. now rewrite Z.sub_diag.
    + destruct (a =? i) eqn:Ea; cbn [andb]; [|reflexivity]. assert (b <> o) by (intros ->; apply Q; f_equal; lia).
      destruct (o + 1 <=? b) eqn:E1; cbn [andb].
      * replace (o <=? b) with true by lia. cbn [andb]. replace (o + 1 + Z.of_nat (length l)) with (o + Z.of_nat (S (length l))) by lia. destruct (b <? _); [|reflexivity].
        replace (Z.to_nat (b - o)) with (S (Z.to_nat (b - (o + 1)))) by lia. reflexivity.
      * replace (o <=? b) with false by lia. reflexivity.
Qed.
Lemma set_row_ok rc t n m f i l : has t [n; m] f -> 0 <= i < n -> Z.of_nat (length l) <= m -> exists t', nt_set_row rc i l t = Ok t' /\ has t' [n; m] (row_put f i 0 l) /\ nmem t' = nmem t.
Proof.
  intros H Hi Hl. pose proof (proj1 H) as (E1 & _). unfold nt_set_row. rewrite E1. cbn [length Nat.eqb assrt].
  destruct (set_row_fold rc n m i Hi l t f 0 H) as (t' & -> & H' & M); [lia|lia|]. cbn [bind]. exists t'. auto.
Qed.
Lemma set_row_refused t i l rc : length (nd t) <> 2%nat -> nt_set_row rc i l t = Throw.
Proof. intro N. unfold nt_set_row. apply Nat.eqb_neq in N. now rewrite N. Qed.
Lemma set_row_spills t n m f i l x : has t [n; m] f -> 0 <= i -> i + 1 < n -> Z.of_nat (length l) = m -> 0 < m ->
  nt_set_row true i (l ++ [x]) t = Throw /\ exists t', nt_set_row false i (l ++ [x]) t = Ok t' /\ has t' [n; m] (upd (row_put f i 0 l) [i + 1; 0] x).
Proof.
  intros H Hi Hn Hl Hm. pose proof (proj1 H) as (E1 & _). unfold nt_set_row. rewrite E1. cbn [length Nat.eqb assrt].
  assert (Hi' : 0 <= i < n) by lia. split.
  - rewrite foldM_app. destruct (set_row_fold true n m i Hi' l t f 0 H) as (t' & -> & H' & M); [lia|lia|]. cbn [bind foldM]. pose proof (proj1 H') as (D1 & _).
    destruct (geti_out t' [n; m] [i; 0 + Z.of_nat (length l)] x D1) as [_ ->]; [|discriminate|reflexivity]. intro I. inversion I as [|? ? ? ? _ J]; subst. inversion J; lia.
  - rewrite foldM_app. destruct (set_row_fold false n m i Hi' l t f 0 H) as (t' & -> & H' & M); [lia|lia|]. cbn [bind foldM].
    assert (Q : nt_seti false [i; 0 + Z.of_nat (length l)] x t' = nt_set [i + 1; 0] x t').
    { pose proof (proj1 H') as (_ & _ & _ & D4 & _). unfold nt_seti, nt_set, nt_offs. rewrite D4. cbn [bind length]. rewrite strides_of_length. cbn [length Nat.leb assrt bind]. rewrite !strides_of_cons. cbn [dot]. unfold prod. cbn [fold_right].
      change (dot (strides_of 1 []) []) with 0.
      replace (1 * (m * 1) * i + (1 * 1 * (0 + Z.of_nat (length l)) + 0)) with (1 * (m * 1) * (i + 1) + (1 * 1 * 0 + 0)) by lia. reflexivity. }
    rewrite Q. destruct (set_has t' [n; m] _ [i + 1; 0] x H' ltac:(apply in2; lia)) as (t2 & -> & H2 & _). cbn [bind]. exists t2. split; [reflexivity|exact H2].
Qed.

Lemma empty_dev_copy t dims : sized t dims -> prod dims = 0 -> 1 <= blen (narr t) -> exists t1 t2, nt_copy_dev t = Ok t1 /\ nt_copy t = Ok t2 /\ nt_eq t1 t2 = Ok false.
Proof.
  intros S P B. unfold nt_copy_dev, nt_copy. rewrite (size_ok _ _ S), P. cbn [bind Z.eqb]. destruct (bcopy_ok (narr t) 1 (narray 1) 0) as (b & -> & _); [lia|lia|rewrite blen_narray; lia|].
  destruct (bcopy_ok (narr t) 0 (narray 0) 0) as (b2 & -> & _); [lia|lia|rewrite blen_narray; lia|]. cbn [bind]. eexists _, _. split; [reflexivity|]. split; [reflexivity|]. apply eq_capacity; [reflexivity|discriminate].
Qed.
Lemma push_flat t x n ds f g : has t (n :: ds) f -> has x ds g -> prod ds = 0 -> nt_push_slice x t = UB.
Proof.
  intros H X P. pose proof (proj1 H) as (E1 & _). pose proof (proj1 X) as (F1 & _). unfold nt_push_slice. rewrite E1, F1. cbn [length tl]. rewrite Nat.eqb_refl. cbn [assrt]. rewrite combine_same. cbn [assrt].
  now rewrite (capacity_flat _ _ _ (proj1 H) P).
Qed.
Lemma push_refused t x n ds : nd t = n :: ds -> nd x <> ds -> nt_push_slice x t = Throw.
Proof.
  intros E N. unfold nt_push_slice. rewrite E. cbn [length tl]. destruct (S (length ds) =? S (length (nd x)))%nat eqn:L; [|reflexivity]. cbn [assrt].
  destruct (forallb _ (combine ds (nd x))) eqn:C; [|reflexivity]. apply Nat.eqb_eq in L. apply combine_eq in C; [congruence|lia].
Qed.
Lemma resize_refused t n ds k : nd t = n :: ds -> k < n -> nt_resize k t = Throw.
Proof. intros E H. unfold nt_resize. rewrite E, zget0. cbn [bind]. now replace (n <=? k) with false by lia. Qed.
