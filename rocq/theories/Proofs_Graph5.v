(* Proofs_Graph5.v -- the planted subgraph search. *)
From Verif Require Import Base BaseFacts Map Proofs_Containers2 Model_Containers Proofs_Containers Proofs_Containers4 Model_Tree Proofs_Tree Proofs_Tree2 Model_Graph Spec_Graph Proofs_Graph Proofs_Graph3 Proofs_Graph4.
Local Open Scope Z_scope.

Definition apart (a b : list Z) : Prop := ~ Permutation a b.
Lemma FOP_snoc {B} (R : B -> B -> Prop) l x : ForallOrdPairs R l -> Forall (fun y => R y x) l -> ForallOrdPairs R (l ++ [x]).
Proof.
  induction l as [|y l IH]; intros A F; cbn; [constructor; constructor|]. inversion_clear A. inversion_clear F. constructor; [|now apply IH]. apply Forall_app. auto.
Qed.
Lemma nodup_front {B} (l r : list B) : NoDup (l ++ r) -> NoDup l.
Proof. induction l as [|x l IH]; cbn; intro N; [constructor|]. inversion_clear N. constructor; [rewrite in_app_iff in H; tauto|auto]. Qed.
Lemma nth_error_ext' {B} : forall (l r : list B), (forall i, nth_error l i = nth_error r i) -> l = r.
Proof. induction l as [|x l IH]; intros [|y r] E; [reflexivity|discriminate (E O)|discriminate (E O)|]. pose proof (E O) as E0. injection E0 as ->. f_equal. apply IH. intro i. exact (E (S i)). Qed.
Lemma nth_error_snoc {B} (l : list B) x i y : nth_error (l ++ [x]) i = Some y -> (i < length l)%nat /\ nth_error l i = Some y \/ i = length l /\ y = x.
Proof.
  intro E. destruct (lt_dec i (length l)) as [H|H]; [left; rewrite nth_error_app1 in E by lia; auto|]. right. rewrite nth_error_app2 in E by lia.
  destruct (i - length l)%nat as [|d] eqn:Ed; [cbn in E; injection E as <-; split; [lia|reflexivity]|]. destruct d; discriminate.
Qed.
Lemma zget_nat {B} (l : list B) i x : nth_error l i = Some x -> zget l (Z.of_nat i) = Ok x.
Proof. intro E. unfold zget, vget. replace (Z.of_nat i <? 0) with false by lia. now rewrite Nat2Z.id, E. Qed.
Lemma gget_find i j g : gget i j g = match mom_find i j (gd g) with Some v => v | None => 0 end.
Proof. apply mom_get_find. Qed.

Section Search.
Context (G H : graph) (GG : good G) (GH : good H) (nb : Z -> list Z) (NB : forall i, Permutation (nb i) (gneighbors i G)).
Context (n : nat) (Hn : gn H = Z.of_nat n) (n1 : (1 <= n)%nat).
Context (T : list (Z * Z)) (L : list Z) (HL : map fst T = L) (PL : Permutation L (zrange (gn H))).
Context (HT : forall k v q, (0 < k)%nat -> nth_error T k = Some (v, q) -> 0 <= q < Z.of_nat k /\ exists u z, nth_error T (Z.to_nat q) = Some (u, z) /\ nz_edge H u v).

Let WG : momwf (gd G) := proj1 (tables_wf _) (good_tables G GG).
Let WH : momwf (gd H) := proj1 (tables_wf _) (good_tables H GH).
Lemma NL : NoDup L. Proof. apply (Permutation_NoDup (Permutation_sym PL)). apply zrange_nodup. Qed.
Lemma lenL : length L = n. Proof. rewrite (Permutation_length PL), zrange_length. lia. Qed.
Lemma lenT : length T = n. Proof. rewrite <- (map_length fst), HL. apply lenL. Qed.
Lemma L_range i v : nth_error L i = Some v -> 0 <= v < gn H.
Proof. intro E. apply in_zrange. apply (Permutation_in _ PL). now apply nth_error_In in E. Qed.
Lemma L_at v : 0 <= v < gn H -> exists i, nth_error L i = Some v.
Proof. intro Hv. apply In_nth_error. apply (Permutation_in _ (Permutation_sym PL)). now apply in_zrange. Qed.
Lemma L_inj i j v : nth_error L i = Some v -> nth_error L j = Some v -> i = j.
Proof. intros A B. apply (proj1 (NoDup_nth_error L) NL); [apply nth_error_Some|]; congruence. Qed.
Lemma T_L i v q : nth_error T i = Some (v, q) -> nth_error L i = Some v.
Proof. intro E. rewrite <- HL, nth_error_map, E. reflexivity. Qed.
Lemma sym_get g i j : good g -> gget i j g = gget j i g.
Proof.
  intros [A B C]. apply tables_wf in A. rewrite !gget_find. destruct (mom_find i j (gd g)) as [v|] eqn:E.
  - apply entry_find, B, entry_find in E; try assumption. now rewrite E.
  - destruct (mom_find j i (gd g)) as [v|] eqn:E2; [|reflexivity]. apply entry_find, B, entry_find in E2; try assumption. congruence.
Qed.

(* partial copies: the images of the first vertices of the traversal *)
Definition valid (p : list Z) : Prop :=
  NoDup p /\ (forall w, In w p -> 0 <= w < gn G) /\ (length p <= n)%nat /\
  (forall i v w, nth_error L i = Some v -> nth_error p i = Some w -> compatible G H v w = true) /\
  (forall i j u v x y, nth_error L i = Some u -> nth_error L j = Some v -> nth_error p i = Some x -> nth_error p j = Some y -> i <> j -> gget u v H = gget x y G).
Lemma valid_prefix p q : valid (p ++ q) -> valid p.
Proof.
  intros (A & B & C & D & E). split; [now apply nodup_front in A|]. split; [intros w I; apply B; rewrite in_app_iff; auto|]. split; [rewrite app_length in C; lia|].
  assert (K : forall i x, nth_error p i = Some x -> nth_error (p ++ q) i = Some x). { intros i x N. rewrite nth_error_app1; [exact N|]. apply nth_error_Some. congruence. }
  split.
  - intros i v w E1 E2. apply (D i); auto.
  - intros i j u v x y E1 E2 E3 E4 Ne. apply (E i j); auto.
Qed.
Definition assigned (p : list Z) (a : asg) : Prop :=
  forall i v, nth_error L i = Some v -> match nth_error p i with Some w => a v = w | None => a v = -1 end.

Lemma afind_some p a w : assigned p a -> 0 <= w -> In w p -> NoDup p -> (length p <= n)%nat -> exists i v, afind (gn H) a w = Some v /\ nth_error L i = Some v /\ nth_error p i = Some w.
Proof.
  intros A Hw I N Lp. destruct (In_nth_error _ _ I) as [i Ei]. assert (Hi : (i < length L)%nat) by (rewrite lenL; assert (i < length p)%nat by (apply nth_error_Some; congruence); lia).
  destruct (nth_error L i) as [v|] eqn:Ev; [|apply nth_error_None in Ev; lia]. pose proof (A i v Ev) as Av. rewrite Ei in Av.
  unfold afind. destruct (find (fun i0 => a i0 =? w) (zrange (gn H))) as [u|] eqn:F.
  - apply find_some in F. destruct F as [Iu Eu]. apply in_zrange in Iu. destruct (L_at u Iu) as [j Ej]. pose proof (A j u Ej) as Au.
    destruct (nth_error p j) as [x|] eqn:Ex; [|lia]. replace x with w in Ex by lia. assert (i = j). { apply (proj1 (NoDup_nth_error p) N); [apply nth_error_Some|]; congruence. } subst j. exists i, u. auto.
  - exfalso. pose proof (find_none _ _ F v) as FN. cbn in FN. rewrite Av in FN. rewrite Z.eqb_refl in FN. enough (true = false) by discriminate. apply FN. apply in_zrange. now apply (L_range i).
Qed.
Lemma afind_none p a w : assigned p a -> 0 <= w -> (afind (gn H) a w = None <-> ~ In w p) \/ (n < length p)%nat.
Proof.
  intros A Hw. destruct (le_lt_dec (length p) n) as [Lp|Lp]; [left|now right]. unfold afind. split.
  - intros F I. destruct (In_nth_error _ _ I) as [i Ei]. assert (Hi : (i < length L)%nat) by (rewrite lenL; assert (i < length p)%nat by (apply nth_error_Some; congruence); lia).
    destruct (nth_error L i) as [v|] eqn:Ev; [|apply nth_error_None in Ev; lia]. pose proof (A i v Ev) as Av. rewrite Ei in Av.
    pose proof (find_none _ _ F v) as FN. cbn in FN. rewrite Av in FN. rewrite Z.eqb_refl in FN. enough (true = false) by discriminate. apply FN. apply in_zrange. now apply (L_range i).
  - intro Nw. destruct (find (fun i => a i =? w) (zrange (gn H))) as [u|] eqn:F; [|reflexivity]. exfalso. apply find_some in F. destruct F as [Iu Eu]. apply in_zrange in Iu. destruct (L_at u Iu) as [j Ej]. pose proof (A j u Ej) as Au.
    destruct (nth_error p j) as [x|] eqn:Ex; [|lia]. apply Nw. replace w with x by lia. now apply nth_error_In in Ex.
Qed.
Lemma check_H_ok p a v w : assigned p a -> valid p ->
  exists b, check_H G H a v w = Ok b /\ (b = true <-> forall i u x y, nth_error L i = Some u -> nth_error p i = Some y -> mom_find v u (gd H) = Some x -> x = gget w y G).
Proof.
  intros A V. assert (Pos : forall y, In y p -> y <> -1). { intros y I. destruct V as (_ & B & _). specialize (B y I). lia. }
  unfold check_H. set (f := fun p0 ok => _).
  destruct (foldM_inv (fun done b => b = true <-> forall u x i y, In (u, x) done -> nth_error L i = Some u -> nth_error p i = Some y -> x = gget w y G) f (mom_row v (gd H)) true) as (b & E & Hb).
  - split; [intros _ u x i y []|reflexivity].
  - intros done [u x] rest b El Hb. unfold f. destruct b; cbn [negb fst snd].
    + assert (Ev : entry v u x (gd H)) by (apply entry_find; [exact WH|]; apply row_in; [exact WH|]; rewrite El, in_app_iff; cbn; auto).
      destruct (good_range H GH v u x Ev) as [_ Ru]. unfold aget, in_n. replace ((0 <=? u) && (u <? gn H)) with true by lia. cbn [bind].
      eexists. split; [reflexivity|]. destruct (L_at u Ru) as [i Ei]. pose proof (A i u Ei) as Au. split.
      * intros B u' x' i' y' I Ei' Ey'. apply in_app_iff in I. destruct I as [I|[I|[]]]; [now apply (proj1 Hb eq_refl u' x' i' y')|]. injection I as -> ->. assert (i' = i) by (now apply (L_inj i' i u')). subst i'. rewrite Ey' in Au. rewrite Au in B. apply orb_true_iff in B. destruct B as [B|B]; [|lia]. exfalso. apply (Pos y'); [now apply nth_error_In in Ey'|lia].
      * intro K. destruct (nth_error p i) as [y|] eqn:Ey; [|rewrite Au; reflexivity]. rewrite Au. apply orb_true_iff. right. apply Z.eqb_eq. apply (K u x i y); auto. rewrite in_app_iff. cbn. auto.
    + exists false. split; [reflexivity|]. split; [discriminate|]. intro K. apply Hb. intros u' x' i' y' I. apply K. rewrite in_app_iff. auto.
  - exists b. split; [exact E|]. rewrite Hb. split.
    + intros K i u x y Ei Ey Ef. apply (K u x i y); auto. now apply row_in.
    + intros K u x i y I Ei Ey. apply (K i u x y); auto. now apply row_in in I.
Qed.
Lemma check_G_ok p a v w : assigned p a -> valid p ->
  (check_G G H a v w = true <-> forall i u x y, nth_error L i = Some u -> nth_error p i = Some y -> mom_find w y (gd G) = Some x -> x = gget v u H).
Proof.
  intros A V. destruct V as (N & B & Lp & _). unfold check_G. rewrite forallb_forall. split.
  - intros K i u x y Ei Ey Ef. apply row_in in Ef; [|exact WG]. specialize (K _ Ef). cbn [fst snd] in K. assert (Iy : In y p) by now apply nth_error_In in Ey.
    destruct (afind_some p a y A ltac:(now apply B) Iy N Lp) as (j & u' & E1 & E2 & E3). rewrite E1 in K. assert (i = j) by (apply (proj1 (NoDup_nth_error p) N); [apply nth_error_Some|]; congruence). subst j. rewrite E2 in Ei. injection Ei as <-. lia.
  - intros K [y x] I. cbn [fst snd]. apply row_in in I; [|exact WG]. assert (Ry : 0 <= y) by (apply entry_find in I; [|exact WG]; now apply (good_range G GG w y x)).
    destruct (in_dec Z.eq_dec y p) as [Iy|Iy].
    + destruct (afind_some p a y A Ry Iy N Lp) as (j & u & E1 & E2 & E3). rewrite E1. apply Z.eqb_eq. now apply (K j u x y).
    + destruct (afind_none p a y A Ry) as [F|F]; [|lia]. apply F in Iy. now rewrite Iy.
Qed.
(* the three tests succeed exactly when the partial copy can be extended *)
Lemma extend p w v : valid p -> 0 <= w < gn G -> ~ In w p -> nth_error L (length p) = Some v ->
  (valid (p ++ [w]) <-> compatible G H v w = true /\
     (forall i u x y, nth_error L i = Some u -> nth_error p i = Some y -> mom_find v u (gd H) = Some x -> x = gget w y G) /\
     (forall i u x y, nth_error L i = Some u -> nth_error p i = Some y -> mom_find w y (gd G) = Some x -> x = gget v u H)).
Proof.
  intros V Hw Nw Ev. assert (Lt : (length p < n)%nat) by (rewrite <- lenL; apply nth_error_Some; congruence).
  assert (Last : nth_error (p ++ [w]) (length p) = Some w) by (rewrite nth_error_app2, Nat.sub_diag by lia; reflexivity).
  assert (Old : forall i x, nth_error p i = Some x -> nth_error (p ++ [w]) i = Some x /\ (i < length p)%nat). { intros i x N. assert (i < length p)%nat by (apply nth_error_Some; congruence). rewrite nth_error_app1; auto. }
  split.
  - intros (A & B & C & D & E). split; [now apply (D (length p))|]. split.
    + intros i u x y Ei Ey Ef. destruct (Old _ _ Ey) as [Ey' Li]. rewrite <- (E (length p) i v u w y Ev Ei Last Ey' ltac:(lia)). rewrite gget_find, Ef. reflexivity.
    + intros i u x y Ei Ey Ef. destruct (Old _ _ Ey) as [Ey' Li]. rewrite (E (length p) i v u w y Ev Ei Last Ey' ltac:(lia)). rewrite gget_find, Ef. reflexivity.
  - intros (Cm & KH & KG). destruct V as (A & B & C & D & E).
    assert (Pair : forall i u y, nth_error L i = Some u -> nth_error p i = Some y -> gget v u H = gget w y G).
    { intros i u y Ei Ey. rewrite (gget_find v u). destruct (mom_find v u (gd H)) as [x|] eqn:Ef; [now apply (KH i u x y)|]. rewrite (gget_find w y). destruct (mom_find w y (gd G)) as [x|] eqn:Eg; [|reflexivity]. rewrite (KG i u x y Ei Ey Eg). now rewrite gget_find, Ef. }
    split; [|split; [|split; [rewrite app_length; cbn; lia|split]]].
    + apply nodup_app'; [exact A|constructor; [intros []|constructor]|]. intros x Ix [<-|[]]. contradiction.
    + intros x Ix. apply in_app_iff in Ix. destruct Ix as [Ix|[<-|[]]]; auto.
    + intros i v' w' E1 E2. apply nth_error_snoc in E2. destruct E2 as [[_ E2]|[-> ->]]; [now apply (D i)|congruence].
    + intros i j u1 u2 x y E1 E2 E3 E4 Ne. apply nth_error_snoc in E3. apply nth_error_snoc in E4. destruct E3 as [[_ E3]|[-> ->]], E4 as [[_ E4]|[-> ->]].
      * now apply (E i j).
      * rewrite (sym_get H u1 u2 GH), (sym_get G x w GG). rewrite Ev in E2. injection E2 as <-. now apply (Pair i).
      * rewrite Ev in E1. injection E1 as <-. now apply (Pair j).
      * lia.
Qed.
Lemma assigned_snoc p a v w : assigned p a -> nth_error L (length p) = Some v -> exists a', aset (gn H) a v w = Ok a' /\ assigned (p ++ [w]) a'.
Proof.
  intros A Ev. pose proof (L_range _ _ Ev) as Rv. unfold aset, in_n. replace ((0 <=? v) && (v <? gn H)) with true by lia. eexists. split; [reflexivity|].
  intros i u Ei. cbn. destruct (u =? v) eqn:E.
  - assert (u = v) by lia. subst u. assert (i = length p) by now apply (L_inj i (length p) v). subst i. rewrite nth_error_app2, Nat.sub_diag by lia. reflexivity.
  - pose proof (A i u Ei) as Au. destruct (lt_eq_lt_dec i (length p)) as [[Li| ->]|Li].
    + rewrite nth_error_app1 by lia. exact Au.
    + exfalso. rewrite Ev in Ei. injection Ei as <-. lia.
    + replace (nth_error (p ++ [w]) i) with (@None Z) by (symmetry; apply nth_error_None; rewrite app_length; cbn; lia). replace (nth_error p i) with (@None Z) in Au by (symmetry; apply nth_error_None; lia). exact Au.
Qed.
Lemma assigned_list p a : assigned p a -> length p = n -> Permutation (map a (zrange (gn H))) p.
Proof.
  intros A Lp. rewrite <- (Permutation_map a PL). replace (map a L) with p; [apply Permutation_refl|]. apply nth_error_ext'. intro i. rewrite nth_error_map.
  destruct (nth_error L i) as [v|] eqn:Ev; cbn.
  - pose proof (A i v Ev) as Av. destruct (nth_error p i) as [w|] eqn:Ew; [now rewrite Av|]. apply nth_error_None in Ew. assert (i < length L)%nat by (apply nth_error_Some; congruence). rewrite lenL in H0. lia.
  - apply nth_error_None in Ev. rewrite lenL in Ev. apply nth_error_None. lia.
Qed.
Definition extends (q p : list Z) : Prop := exists r, q = p ++ r.
Definition new_paths (p : list Z) (w : Z) (r : option (tree Z)) : list (list Z) := match r with None => [] | Some t => map (app p) (lmaximal (w, t)) end.
Definition result_ok (p : list Z) (w : Z) (F : list (list Z)) (r : option (tree Z)) : Prop :=
  (forall t, r = Some t -> full (n - length p) (w, t)) /\
  (forall x, In x (new_paths p w r) -> valid x /\ length x = n) /\
  (ForallOrdPairs apart F -> ForallOrdPairs apart (F ++ new_paths p w r)) /\
  (forall y, valid y -> length y = n -> extends y (p ++ [w]) -> exists x, In x (F ++ new_paths p w r) /\ Permutation x y).
Lemma found_cons roots ctx w ks : found roots ((w, ks) :: ctx) = found roots ctx ++ map (app (prefix_of ctx ++ [w])) (flat_map lmaximal ks).
Proof. unfold found. cbn [cfound]. now rewrite app_assoc. Qed.

Lemma make_ok roots : (forall t, In t roots -> full n t) ->
  forall k ctx a w, frames_ok n ctx -> valid (prefix_of ctx) -> assigned (prefix_of ctx) a -> (length ctx < n)%nat -> (n - length ctx < k)%nat -> 0 <= w < gn G -> ~ In w (prefix_of ctx) ->
  exists r, make_subtree k G H nb T roots ctx a w (Z.of_nat (length ctx)) = Ok r /\ result_ok (prefix_of ctx) w (found roots ctx) r.
Proof.
  intro HR. induction k as [|k IH]; intros ctx a w HF HV HA Lc Lk Hw Nw; [lia|]. cbn [make_subtree]. set (p := prefix_of ctx) in *. set (m := length ctx) in *.
  assert (Lp : length p = m) by apply prefix_len. rewrite lenT. replace (Z.of_nat m <? Z.of_nat n) with true by lia. cbn [assrt].
  destruct (nth_error T m) as [[v q0]|] eqn:Em; [|apply nth_error_None in Em; rewrite lenT in Em; lia]. rewrite (zget_nat _ _ _ Em). cbn [bind fst].
  pose proof (T_L _ _ _ Em) as Ev. rewrite <- Lp in Ev. pose proof (extend p w v HV Hw Nw Ev) as X.
  assert (Fail : ~ valid (p ++ [w]) -> result_ok p w (found roots ctx) None).
  { intro NV. split; [discriminate|]. split; [intros x []|]. split; [cbn; now rewrite app_nil_r|]. intros y Vy Ly [r ->]. exfalso. apply NV. now apply valid_prefix in Vy. }
  destruct (compatible G H v w) eqn:Ec; cbn [negb]; [|exists None; split; [reflexivity|]; apply Fail; rewrite X; intros [E _]; discriminate].
  destruct (check_H_ok p a v w HA HV) as (b & -> & Hb). cbn [bind]. destruct b; cbn [negb]; [|exists None; split; [reflexivity|]; apply Fail; rewrite X; intros (_ & E & _); apply Hb in E; discriminate].
  pose proof (check_G_ok p a v w HA HV) as Hc. destruct (check_G G H a v w) eqn:Eg; cbn [negb]; [|exists None; split; [reflexivity|]; apply Fail; rewrite X; intros (_ & _ & E); apply Hc in E; discriminate].
  assert (V' : valid (p ++ [w])) by (apply X; split; [reflexivity|]; split; [now apply Hb|now apply Hc]).
  destruct (assigned_snoc p a v w HA Ev) as (a' & -> & A'). cbn [bind]. destruct (Z.of_nat m =? gn H - 1) eqn:Elast.
  - (* last vertex *)
    assert (Lpw : length (p ++ [w]) = n) by (rewrite app_length; cbn; lia). pose proof (assigned_list _ _ A' Lpw) as PA.
    assert (NA : NoDup (map a' (zrange (gn H)))) by (apply (Permutation_NoDup (Permutation_sym PA)); apply V').
    assert (Dup : forest_consists (map a' (zrange (gn H))) (plug roots ctx (-1, Tree [])) = true <-> exists x, In x (found roots ctx) /\ Permutation x (p ++ [w])).
    { rewrite forest_consists_ok by exact NA. split.
      - intros (t & x & I & Rx & Px). rewrite PA in Px. exists x. split; [|exact Px]. apply (plug_found n); try assumption; [lia|rewrite (Permutation_length Px); exact Lpw| |exists t; auto]. intro I1. apply (Permutation_in _ Px) in I1. apply V' in I1. lia.
      - intros (x & I & Px). assert (Lx : length x = n) by (rewrite (Permutation_length Px); exact Lpw). apply (plug_found n roots ctx x HR HF ltac:(lia) Lx) in I; [|intro I1; apply (Permutation_in _ Px) in I1; apply V' in I1; lia]. destruct I as (t & I & Rx). exists t, x. split; [exact I|]. split; [exact Rx|]. now rewrite PA. }
    eexists. split; [reflexivity|]. destruct (forest_consists (map a' (zrange (gn H))) (plug roots ctx (-1, Tree []))).
    + split; [discriminate|]. split; [intros x []|]. split; [cbn; now rewrite app_nil_r|]. intros y Vy Ly [r ->]. cbn [new_paths]. rewrite app_nil_r. rewrite app_length in Ly. destruct r; [|cbn in Ly; lia]. rewrite app_nil_r. now apply Dup.
    + assert (EN : new_paths p w (Some (Tree [])) = [p ++ [w]]) by reflexivity. unfold result_ok. rewrite EN. split.
      { intros t E. injection E as <-. replace (n - length p)%nat with 1%nat by lia. reflexivity. }
      split; [intros x [<-|[]]; auto|]. split.
      { intro FF. apply FOP_snoc; [exact FF|]. apply Forall_forall. intros x Ix Px. enough (false = true) by discriminate. apply Dup. exists x. auto. }
      { intros y Vy Ly [r ->]. rewrite app_length in Ly. destruct r; [|cbn in Ly; lia]. rewrite app_nil_r. exists (p ++ [w]). split; [rewrite in_app_iff; cbn; auto|apply Permutation_refl]. }
  - (* a further vertex *)
    destruct (nth_error T (S m)) as [[v' q]|] eqn:Es; [|apply nth_error_None in Es; rewrite lenT in Es; lia].
    destruct (HT (S m) v' q ltac:(lia) Es) as (Hq & u & z & Eq & Euv).
    replace (Z.of_nat m + 1) with (Z.of_nat (S m)) by lia. rewrite (zget_nat _ _ _ Es). cbn [bind fst snd]. replace q with (Z.of_nat (Z.to_nat q)) by lia. rewrite (zget_nat _ _ _ Eq). cbn [bind fst].
    pose proof (T_L _ _ _ Eq) as Eu. pose proof (L_range _ _ Eu) as Ru. unfold aget, in_n. replace ((0 <=? u) && (u <? gn H)) with true by lia. cbn [bind].
    set (f := fun w' ks => _). pose proof (A' _ _ Eu) as Au. destruct (nth_error (p ++ [w]) (Z.to_nat q)) as [np|] eqn:En; [|apply nth_error_None in En; rewrite app_length in En; cbn in En; lia].
    assert (PC : forall ks, prefix_of ((w, ks) :: ctx) = p ++ [w]) by reflexivity.
    destruct (foldM_inv (fun (done : list Z) (ks : list (Z * tree Z)) => (forall kt, In kt ks -> full (n - S m) kt) /\ (forall x, In x (flat_map lmaximal ks) -> valid ((p ++ [w]) ++ x) /\ length ((p ++ [w]) ++ x) = n) /\
       (ForallOrdPairs apart (found roots ctx) -> ForallOrdPairs apart (found roots ((w, ks) :: ctx))) /\
       (forall y w', In w' done -> valid y -> length y = n -> extends y ((p ++ [w]) ++ [w']) -> exists x, In x (found roots ((w, ks) :: ctx)) /\ Permutation x y)) f (nb (a' u)) []) as (ks & E & K1 & K2 & K3 & K4).
    + split; [intros kt []|]. split; [intros x []|]. split; [rewrite found_cons; cbn; now rewrite app_nil_r|]. intros y w' [].
    + intros done w' rest ks El (K1 & K2 & K3 & K4). assert (Iw : In w' (nb (a' u))) by (rewrite El, in_app_iff; cbn; auto).
      assert (Rw : 0 <= w' < gn G). { apply (Permutation_in _ (NB _)) in Iw. unfold gneighbors in Iw. apply in_map_iff in Iw. destruct Iw as ([w2 x] & E & I). cbn in E. subst w2. apply row_in in I; [|exact WG]. apply entry_find in I; [|exact WG]. now apply (good_range G GG (a' u) w' x). }
      unfold f. destruct (afind (gn H) a' w') as [j|] eqn:Ef.
      * exists ks. split; [reflexivity|]. split; [exact K1|]. split; [exact K2|]. split; [exact K3|]. intros y w2 I2 Vy Ly Ey. apply in_app_iff in I2. destruct I2 as [I2|[<-|[]]]; [now apply (K4 y w2)|]. exfalso.
        assert (In w' (p ++ [w])). { destruct (in_dec Z.eq_dec w' (p ++ [w])) as [I|I]; [exact I|]. destruct (afind_none (p ++ [w]) a' w' A' ltac:(lia)) as [F|F]; [apply F in I; congruence|]. rewrite app_length in F. cbn in F. lia. }
        destruct Ey as [r ->]. destruct Vy as (ND & _). apply nodup_front in ND. apply NoDup_remove_2 in ND. rewrite app_nil_r in ND. contradiction.
      * assert (Nw' : ~ In w' (p ++ [w])). { destruct (afind_none (p ++ [w]) a' w' A' ltac:(lia)) as [F|F]; [now apply F|]. rewrite app_length in F. cbn in F. lia. }
        destruct (IH ((w, ks) :: ctx) a' w') as (r & Er & R1 & R2 & R3 & R4); try (rewrite ?PC; assumption).
        { cbn [frames_ok]. split; [exact HF|]. exact K1. }
        { cbn [length]. lia. }
        { cbn [length]. lia. }
        cbn [length] in Er. fold m in Er. rewrite PC in R1, R2, R3, R4. assert (Lpw : length (p ++ [w]) = S m) by (rewrite app_length; cbn; lia). rewrite Lpw in R1.
        assert (FE : found roots ((w, match r with None => ks | Some t => ks ++ [(w', t)] end) :: ctx) = found roots ((w, ks) :: ctx) ++ new_paths (p ++ [w]) w' r).
        { rewrite !found_cons. destruct r as [t|]; [|cbn; now rewrite app_nil_r]. rewrite flat_map_app, map_app. cbn [flat_map new_paths]. rewrite app_nil_r. now rewrite <- app_assoc. }
        exists (match r with None => ks | Some t => ks ++ [(w', t)] end). split; [refine (eq_trans (f_equal (fun z => bind z _) Er) _); reflexivity|]. split; [|split; [|split]].
        -- intros kt I. destruct r as [t|]; [|now apply K1]. apply in_app_iff in I. destruct I as [I|[<-|[]]]; [now apply K1|now apply R1].
        -- intros x I. destruct r as [t|]; [|now apply K2]. rewrite flat_map_app in I. apply in_app_iff in I. destruct I as [I|I]; [now apply K2|]. cbn [flat_map] in I. rewrite app_nil_r in I. apply R2. cbn [new_paths]. apply in_map. exact I.
        -- intro FF. rewrite FE. apply R3. now apply K3.
        -- intros y w2 I2 Vy Ly Ey. rewrite FE. apply in_app_iff in I2. destruct I2 as [I2|[<-|[]]].
           ++ destruct (K4 y w2 I2 Vy Ly Ey) as (x & I & Px). exists x. split; [rewrite in_app_iff; auto|exact Px].
           ++ now apply R4.
    + exists (match ks with [] => None | _ => Some (Tree ks) end). split; [refine (eq_trans (f_equal (fun z => bind z _) E) _); reflexivity|].
      assert (FE : found roots ctx ++ new_paths p w (match ks with [] => None | _ => Some (Tree ks) end) = found roots ((w, ks) :: ctx)).
      { rewrite found_cons. f_equal. destruct ks as [|k0 ks0]; [reflexivity|]. cbn [new_paths]. rewrite lmaximal_node by discriminate. rewrite map_map. apply map_ext. intro x. now rewrite <- app_assoc. }
      unfold result_ok. rewrite FE. split; [|split; [|split; [exact K3|]]].
      * intros t Et. rewrite Lp. assert (Ne : ks <> []) by (destruct ks; discriminate). assert (t = Tree ks) by (destruct ks; congruence). subst t. replace (n - m)%nat with (S (n - S m)) by lia. destruct (n - S m)%nat as [|d] eqn:Ed; [lia|]. split; [exact Ne|exact K1].
      * intros x I. destruct ks as [|k0 ks0]; [destruct I|]. cbn [new_paths] in I. rewrite lmaximal_node in I by discriminate. rewrite map_map in I. apply in_map_iff in I. destruct I as (x' & <- & I). specialize (K2 x' I). rewrite <- app_assoc in K2. exact K2.
      * intros y Vy Ly [r ->]. rewrite app_length in Ly. cbn in Ly. assert (Lpw : length (p ++ [w]) = S m) by (rewrite app_length; cbn; lia). rewrite Lpw in *. destruct r as [|w' r]; [cbn in Ly; lia|].
        assert (Ey : (p ++ [w]) ++ w' :: r = ((p ++ [w]) ++ [w']) ++ r) by (rewrite <- (app_assoc (p ++ [w])); reflexivity).
        apply (K4 _ w'); [|exact Vy| |exists r; exact Ey].
        2:{ rewrite app_length, Lpw. exact Ly. }
        destruct Vy as (_ & _ & _ & _ & VE). rewrite Au. pose proof (T_L _ _ _ Es) as Ev'.
        assert (Y1 : nth_error ((p ++ [w]) ++ w' :: r) (Z.to_nat q) = Some np) by (rewrite nth_error_app1 by lia; exact En).
        assert (Y2 : nth_error ((p ++ [w]) ++ w' :: r) (S m) = Some w') by (rewrite nth_error_app2 by lia; rewrite Lpw, Nat.sub_diag; reflexivity).
        pose proof (VE _ _ _ _ _ _ Eu Ev' Y1 Y2 ltac:(lia)) as EW. destruct Euv as (x & Nx & Ex). apply entry_find in Ex; [|exact WH]. rewrite gget_find, Ex, gget_find in EW.
        destruct (mom_find np w' (gd G)) as [x'|] eqn:Eg'; [|congruence]. apply (Permutation_in _ (Permutation_sym (NB np))). apply in_map_iff. exists (w', x'). split; [reflexivity|]. now apply row_in.
Qed.

Lemma search_ok k : (n < k)%nat ->
  exists roots, forZ (gn G) (fun i roots => do r <- make_subtree k G H nb T roots [] (fun _ => -1) i 0; Ok (match r with None => roots | Some t => roots ++ [(i, t)] end)) [] = Ok roots /\
    (forall t, In t roots -> full n t) /\ (forall x, In x (flat_map lmaximal roots) -> valid x /\ length x = n) /\ ForallOrdPairs apart (flat_map lmaximal roots) /\
    (forall y, valid y -> length y = n -> exists x, In x (flat_map lmaximal roots) /\ Permutation x y).
Proof.
  intro Hk. unfold forZ. set (f := fun i roots => _).
  destruct (foldM_inv (fun done roots => (forall t, In t roots -> full n t) /\ (forall x, In x (flat_map lmaximal roots) -> valid x /\ length x = n) /\ ForallOrdPairs apart (flat_map lmaximal roots) /\
    (forall y w, In w done -> valid y -> length y = n -> extends y [w] -> exists x, In x (flat_map lmaximal roots) /\ Permutation x y)) f (zrange (gn G)) []) as (roots & E & K1 & K2 & K3 & K4).
  - split; [intros t []|]. split; [intros x []|]. split; [constructor|]. intros y w [].
  - intros done i rest roots El (K1 & K2 & K3 & K4). assert (Hi : 0 <= i < gn G) by (apply in_zrange; rewrite El, in_app_iff; cbn; auto).
    destruct (make_ok roots K1 k [] (fun _ => -1) i) as (r & Er & R1 & R2 & R3 & R4); try (cbn; (lia || tauto)).
    { split; [constructor|]. split; [intros w []|]. split; [cbn; lia|]. split; intros; destruct i0; discriminate. }
    { intros j v Ej. cbn. destruct j; reflexivity. }
    cbn [length] in Er. change (Z.of_nat 0) with 0 in Er. cbn in R1, R3, R4. replace (n - 0)%nat with n in R1 by lia.
    assert (EF : found roots [] = flat_map lmaximal roots) by (unfold found; cbn; now rewrite app_nil_r). rewrite EF in R3, R4.
    assert (EN : flat_map lmaximal (match r with None => roots | Some t => roots ++ [(i, t)] end) = flat_map lmaximal roots ++ new_paths [] i r).
    { destruct r as [t|]; [|cbn; now rewrite app_nil_r]. rewrite flat_map_app. cbn [flat_map new_paths]. rewrite app_nil_r. f_equal. rewrite <- (map_id (lmaximal (i, t))) at 1. reflexivity. }
    exists (match r with None => roots | Some t => roots ++ [(i, t)] end). split; [refine (eq_trans (f_equal (fun z => bind z _) Er) _); reflexivity|]. rewrite EN. split; [|split; [|split; [now apply R3|]]].
    + intros t I. destruct r as [t'|]; [|now apply K1]. apply in_app_iff in I. destruct I as [I|[<-|[]]]; [now apply K1|now apply R1].
    + intros x I. apply in_app_iff in I. destruct I as [I|I]; [now apply K2|now apply R2].
    + intros y w I Vy Ly Ey. apply in_app_iff in I. destruct I as [I|[<-|[]]]; [destruct (K4 y w I Vy Ly Ey) as (x & Ix & Px); exists x; split; [rewrite in_app_iff; auto|exact Px]|now apply R4].
  - rewrite E. exists roots. split; [reflexivity|]. split; [exact K1|]. split; [exact K2|]. split; [exact K3|]. intros y Vy Ly. destruct y as [|w y]; [cbn in Ly; lia|]. apply (K4 _ w); [|exact Vy|exact Ly|exists y; reflexivity]. apply in_zrange. apply Vy. now left.
Qed.
End Search.
