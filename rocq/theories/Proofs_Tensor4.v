From Verif Require Import Base BaseFacts Model_Index Model_View Model_Tensor Spec_Index Spec_View Spec_Tensor
  Proofs_Axes Proofs_Index Proofs_View Proofs_View2 Proofs_Tensor Proofs_Tensor2 Proofs_Tensor3.
Local Open Scope Z_scope.

(* ---- equality ---- *)
Lemma cmp_loop_ok {V} (eqv : V -> V -> bool) x y l (m : mem V) (f g : Z -> V) :
  (forall i, In i l -> m (vblk x) (voff x + i) = Some (f i) /\ m (vblk y) (voff y + i) = Some (g i)) ->
  cmp_loop eqv x y l m = Ok (forallb (fun i => eqv (f i) (g i)) l).
Proof.
  induction l as [|i l IH]; intro H; [reflexivity|]. cbn [cmp_loop forallb].
  destruct (H i (or_introl eq_refl)) as [H1 H2]. unfold load. rewrite H1. cbn. rewrite H2. cbn.
  destruct (eqv (f i) (g i)); [|reflexivity]. apply IH. intros; apply H; now right.
Qed.
Lemma eq_ok {V} (eqv : V -> V -> bool) x y (m : mem V) :
  (forall a b, eqv a b = true <-> a = b) -> vwf x -> vwf y -> readable m x -> readable m y ->
  vstr x = strides_of 1 (vdims x) -> vstr y = strides_of 1 (vdims y) ->
  exists b, tv_eq eqv x y m = Ok b /\
    (b = true <-> vdims x = vdims y /\ forall ix, in_range ix (vdims x) -> elem m x ix = elem m y ix).
Proof.
  intros Heq Wx Wy Rx Ry Sx Sy. unfold tv_eq. destruct (eqlb (vdims x) (vdims y)) eqn:E; cbn [negb].
  2:{ exists false. split; [reflexivity|]. split; [discriminate|]. intros [D _]. rewrite D, eqlb_refl in E. discriminate. }
  apply eqlb_eq in E. pose proof Wx as [Lx Nx]. pose proof Wy as [Ly Ny].
  assert (Rg : forall d, is_regular (strides_of 1 d) d = Ok true).
  { intro d. apply is_regular_iff; [apply strides_of_length|reflexivity]. }
  rewrite Sx, Sy, !Rg. cbn [bind].
  assert (Cx : forall ix, in_range ix (vdims x) -> elem m x ix = m (vblk x) (voff x + dot (strides_of 1 (vdims x)) ix) /\ elem m y ix = m (vblk y) (voff y + dot (strides_of 1 (vdims x)) ix)).
  { intros ix Hix. rewrite elem_cell by assumption. rewrite elem_cell by congruence.
    unfold at_, cell. cbn. rewrite Sx, Sy, E. auto. }
  destruct (Z.eq_dec (prod (vdims x)) 0) as [H0|H0].
  { exists true. rewrite asize_prod, H0. cbn. split; [reflexivity|]. split; [|reflexivity]. intros _. split; [assumption|].
    intros ix Hix. apply in_all_indices in Hix. rewrite all_indices_empty in Hix by assumption. destruct Hix. }
  rewrite asize_prod.
  (* some element gives a default value *)
  assert (Hex : exists ix, in_range ix (vdims x)).
  { destruct (all_indices (vdims x)) as [|ix l] eqn:Ei.
    - exfalso. pose proof (row_major_addrs (vdims x) Nx) as P. rewrite Ei in P. cbn in P.
      pose proof (prod_nonneg _ Nx). assert (In 0 (zrange (prod (vdims x)))) by (apply in_zrange; lia). rewrite <- P in H1. destruct H1.
    - exists ix. apply in_all_indices. rewrite Ei. now left. }
  destruct Hex as [ix0 Hix0]. pose proof (Rx ix0 Hix0) as Hd0. destruct (elem m x ix0) as [v0|] eqn:Ev0; [|congruence].
  pose (f := fun i => match m (vblk x) (voff x + i) with Some v => v | None => v0 end).
  pose (g := fun i => match m (vblk y) (voff y + i) with Some v => v | None => v0 end).
  assert (Hfg : forall i, In i (zrange (prod (vdims x))) -> m (vblk x) (voff x + i) = Some (f i) /\ m (vblk y) (voff y + i) = Some (g i)).
  { intros i Hi. rewrite <- row_major_addrs in Hi by assumption. apply in_map_iff in Hi as (ix & <- & Hix).
    apply in_all_indices in Hix. destruct (Cx ix Hix) as [C1 C2]. unfold f, g. rewrite <- C1, <- C2.
    specialize (Rx ix Hix). assert (Hiy : in_range ix (vdims y)) by congruence. specialize (Ry ix Hiy).
    destruct (elem m x ix), (elem m y ix); try congruence. auto. }
  rewrite (cmp_loop_ok eqv x y _ m f g Hfg). eexists. split; [reflexivity|]. rewrite forallb_forall. split.
  - intro H. split; [assumption|]. intros ix Hix. destruct (Cx ix Hix) as [-> ->].
    assert (Hi : In (dot (strides_of 1 (vdims x)) ix) (zrange (prod (vdims x)))).
    { rewrite <- row_major_addrs by assumption. apply in_map. now apply in_all_indices. }
    destruct (Hfg _ Hi) as [-> ->]. f_equal. apply Heq. now apply H.
  - intros [_ H] i Hi. destruct (Hfg i Hi) as [A B]. rewrite <- row_major_addrs in Hi by assumption.
    apply in_map_iff in Hi as (ix & Ei & Hix). apply in_all_indices in Hix. specialize (H ix Hix).
    destruct (Cx ix Hix) as [C1 C2]. rewrite Ei in C1, C2. rewrite C1, C2, A, B in H. apply Heq. congruence.
Qed.

(* ---- stack ---- *)
Lemma total_app d l1 l2 : total_side d (l1 ++ l2) = total_side d l1 + total_side d l2.
Proof. unfold total_side. induction l1; cbn; lia. Qed.
Lemma total_nonneg d l : Forall vwf l -> 0 <= total_side d l.
Proof.
  unfold total_side. induction 1 as [|x l [_ Hx] Hl IH]; cbn; [lia|]. pose proof (nonneg_nth d _ Hx). lia.
Qed.
Lemma set_of_del d a b n : (d < length a)%nat -> (d < length b)%nat -> del d a = del d b -> set_nth d (nth d b 0) (set_nth d n a) = b.
Proof.
  revert a b; induction d as [|d IH]; intros [|x a] [|y b] Ha Hb E; cbn in *; try lia; [congruence|].
  injection E as -> E. f_equal. apply IH; try lia. exact E.
Qed.
Lemma stack_ok {R : cring} b d (l : list view) x0 (m : mem (car R)) :
  hd_error l = Some x0 -> Forall vwf l -> Forall (readable m) l ->
  Forall (fun x => (d < length (vdims x))%nat /\ del d (vdims x) = del d (vdims x0)) l ->
  Forall (fun s => s < INT_MAX) (strides_of 1 (set_nth d (total_side d l) (vdims x0))) ->
  (forall a, m b a = None) ->
  exists r m', tv_stack b (Z.of_nat d) l m = Ok (r, m') /\ vdims r = set_nth d (total_side d l) (vdims x0) /\
    distinct_cells r /\ (forall b' a, b' <> b -> m' b' a = m b' a) /\
    forall pre x post ix, l = pre ++ x :: post -> in_range ix (vdims x) ->
      in_range (set_nth d (total_side d pre + nth d ix 0) ix) (vdims r) /\
      elem m' r (set_nth d (total_side d pre + nth d ix 0) ix) = elem m x ix.
Proof.
  intros Hhd Hwf Hrd Hsh Hmax Hb. destruct l as [|y l0]; [discriminate|]. cbn in Hhd. injection Hhd as ->.
  unfold tv_stack. set (l := x0 :: l0) in *.
  pose proof (Forall_inv Hsh) as [Hd0 _]. pose proof (Forall_inv Hwf) as W0.
  rewrite Forall_forall in Hwf, Hrd, Hsh.
  replace (Z.of_nat d <? ndims x0) with true by (unfold ndims; lia). cbn [assrt].
  rewrite vremove_ok' by lia. cbn [bind]. rewrite Nat2Z.id.
  destruct (foldM_inv (fun done t => t = total_side d done)
     (fun x t => do n <- zget (vdims x) (Z.of_nat d); do r <- vremove (Z.of_nat d) (vdims x);
                 assrt (eqlb r (del d (vdims x0))) (Ok (t + n))) l 0) as (t & Et & ->).
  { reflexivity. }
  { intros done x rest t El ->. assert (Hx : In x l) by (rewrite El; apply in_or_app; right; now left).
    destruct (Hsh x Hx) as [Hdx Hdel]. rewrite zget_nth_ok by lia. cbn [bind]. rewrite vremove_ok' by lia. cbn [bind].
    rewrite Nat2Z.id, Hdel, eqlb_refl. eexists. split; [reflexivity|]. rewrite total_app. cbn. lia. }
  rewrite Et. cbn [bind]. rewrite vset_ok by lia. cbn [bind]. rewrite Nat2Z.id.
  set (dd := set_nth d (total_side d l) (vdims x0)) in *. set (r := fresh_view b dd).
  assert (Hfl : forall l', incl l' l -> 0 <= total_side d l').
  { intros l' Hi. apply total_nonneg. apply Forall_forall. intros x Hx. apply Hwf. now apply Hi. }
  assert (Hdd : nonneg dd) by (apply nonneg_set; [apply W0|apply Hfl, incl_refl]).
  pose proof (fresh_wf b dd Hdd) as Wr. fold r in Wr. destruct (fresh_inside b dd Hdd) as [Hins Hdis]. fold r in Hins, Hdis.
  assert (Hldd : length dd = length (vdims x0)) by apply Proofs_View.set_nth_length.
  set (m0 := alloc c0 b (asize dd) m).
  assert (Hxb : forall x ix b' a, In x l -> in_range ix (vdims x) -> vaddr x ix = Ok (b', a) -> b' <> b).
  { intros x ix b' a Hx Hix Ea ->. specialize (Hrd x Hx ix Hix). unfold elem in Hrd. rewrite Ea in Hrd. now apply Hrd. }
  destruct (foldM_inv (fun done (s : Z * mem (car R)) => fst s = total_side d done /\
      (forall b' a, b' <> b -> snd s b' a = m b' a) /\
      (forall ix, in_range ix dd -> fst s <= nth d ix 0 -> elem (snd s) r ix = Some c0) /\
      (forall ix, in_range ix dd -> elem (snd s) r ix <> None) /\
      forall pre x post ix, done = pre ++ x :: post -> in_range ix (vdims x) ->
        elem (snd s) r (set_nth d (total_side d pre + nth d ix 0) ix) = elem m x ix)
    (fun x s => let '(t, m) := s in
                do n <- zget (vdims x) (Z.of_nat d); do w <- slices (Z.of_nat d) t n r;
                do m' <- tv_add w x m; Ok (t + n, m')) l (0, m0)) as ([t' m'] & E & A1 & A2 & A3 & A4 & A5).
  { cbn [fst snd]. split; [reflexivity|]. split; [intros; now apply alloc_other|].
    split; [intros ix Hix _; now apply fresh_readable|].
    split; [intros ix Hix; unfold m0, r; rewrite fresh_readable by assumption; discriminate|].
    intros pre x post ix El. destruct pre; discriminate. }
  2:{ exists r, m'. rewrite E. cbn [bind]. split; [reflexivity|]. split; [reflexivity|]. split; [exact Hdis|].
      cbn [fst snd] in *. split; [exact A2|]. intros pre x post ix El Hix. split; [|now apply (A5 pre x post)].
      change (vdims r) with dd. unfold dd.
      assert (Hx : In x l) by (rewrite El; apply in_or_app; right; now left). destruct (Hsh x Hx) as [Hdx Hdel].
      assert (Ex : vdims x0 = set_nth d (nth d (vdims x0) 0) (vdims x)).
      { rewrite <- (set_of_del d (vdims x) (vdims x0) (nth d (vdims x) 0)) at 1; [|assumption|assumption|assumption].
        now rewrite set_nth_id. }
      rewrite Ex. assert (G : forall a b' (v : list Z), set_nth d a (set_nth d b' v) = set_nth d a v).
      { clear. induction d; intros a b' [|z v]; cbn; try reflexivity. f_equal. apply IHd. }
      rewrite G. apply in_range_set; [assumption|]. rewrite El, total_app.
      change (total_side d (x :: post)) with (nth d (vdims x) 0 + total_side d post).
      pose proof (Hfl pre). pose proof (Hfl post).
      assert (0 <= total_side d pre) by (apply Hfl; rewrite El; intros z Hz; apply in_or_app; now left).
      assert (0 <= total_side d post) by (apply Hfl; rewrite El; intros z Hz; apply in_or_app; right; now right).
      apply in_range_nth in Hix as [Hl Hn]. specialize (Hn d ltac:(lia)). lia. }
  intros done x rest [t m1] El (A1 & A2 & A3 & A4 & A5). cbn [fst snd] in *. subst t.
  assert (Hx : In x l) by (rewrite El; apply in_or_app; right; now left). destruct (Hsh x Hx) as [Hdx Hdel].
  pose proof (Hwf x Hx) as Wx. set (n := nth d (vdims x) 0). set (t := total_side d done).
  assert (Hn : 0 <= n) by (apply nonneg_nth, Wx).
  assert (Ht : 0 <= t) by (apply Hfl; rewrite El; intros z Hz; apply in_or_app; now left).
  assert (Htn : t + n <= total_side d l).
  { rewrite El, total_app. change (total_side d (x :: rest)) with (nth d (vdims x) 0 + total_side d rest).
    assert (0 <= total_side d rest) by (apply Hfl; rewrite El; intros z Hz; apply in_or_app; right; now right).
    unfold t, n. lia. }
  rewrite zget_nth_ok by lia. cbn [bind]. rewrite Nat2Z.id. fold n.
  assert (Es : slices (Z.of_nat d) t n r = Ok (View b (0 + nth d (strides_of 1 dd) 0 * t) (vdims x) (strides_of 1 dd))).
  { unfold slices. change (vstr r) with (strides_of 1 dd). change (vdims r) with dd.
    rewrite zget_nth_ok by (rewrite strides_of_length; lia). cbn [bind]. rewrite vset_ok by lia. cbn [bind].
    rewrite Nat2Z.id. unfold dd at 2, n. rewrite set_of_del by (try lia; now symmetry). reflexivity. }
  set (w := View b (0 + nth d (strides_of 1 dd) 0 * t) (vdims x) (strides_of 1 dd)) in *.
  destruct (slices_embeds (Z.of_nat d) t n r w) as (Ww & Sw & Iw); [assumption| |exact Es|].
  { exists (total_side d l). split; [|lia]. change (vdims r) with dd. rewrite zget_nth_ok by lia. rewrite Nat2Z.id. unfold dd.
    rewrite Proofs_View.nth_set_nth by assumption. now rewrite Nat.eqb_refl. }
  rewrite Nat2Z.id in Sw, Iw. rewrite Es. cbn [bind].
  assert (Hw : forall (mm : mem (car R)) ix, in_range ix (vdims x) -> in_range (shift_at d t ix) dd /\ elem mm w ix = elem mm r (shift_at d t ix)).
  { intros mm ix Hix. destruct (Sw ix Hix) as [B1 B2]. split; [exact B1|]. unfold elem. now rewrite B2. }
  assert (Hnl : forall ix, in_range ix (vdims x) -> nth d (shift_at d t ix) 0 = t + nth d ix 0 /\ 0 <= nth d ix 0 < n).
  { intros ix Hix. apply in_range_nth in Hix as [Hl Hnn]. unfold shift_at.
    rewrite Proofs_View.nth_set_nth by lia. rewrite Nat.eqb_refl. split; [reflexivity|]. apply Hnn. lia. }
  assert (Hxm : forall ix, in_range ix (vdims x) -> elem m1 x ix = elem m x ix).
  { intros ix Hix. unfold elem. destruct (vaddr x ix) as [[b' a]| |] eqn:Ea; try reflexivity.
    apply A2. now apply (Hxb x ix b' a). }
  destruct (add_ok w x m1) as (m2 & E2 & B2 & C2); try assumption.
  + destruct (fresh_plain b dd Hdd Hmax) as (P1 & P2 & P3 & P4). split; [apply Ww|]. split; [apply Ww|]. split; [exact P3|].
    right. destruct P4 as [P4|P4]; [|exact P4]. exfalso. cbn in P4. rewrite P4 in Hldd. cbn in Hldd. lia.
  + reflexivity.
  + now apply (shows_distinct w r (shift_at d t)).
  + intros ix Hix. destruct (Hw m1 ix Hix) as [W1 W2]. rewrite W2. now apply A4.
  + intros ix Hix. rewrite Hxm by assumption. now apply Hrd.
  + intros ix jx Hix Hjx Eq. exfalso. pose proof (vaddr_in_range w ix Ww Hix) as Ea.
    rewrite Ea in Eq. symmetry in Eq. now apply (Hxb x jx _ _ Hx Hjx Eq).
  + rewrite E2. cbn [bind]. eexists. split; [reflexivity|]. cbn [fst snd].
    assert (Hout : forall ix, in_range ix dd -> (nth d ix 0 < t \/ t + n <= nth d ix 0) -> elem m2 r ix = elem m1 r ix).
    { intros ix Hix Hc. destruct (Hins ix Hix) as (a & Ea & _). unfold elem. rewrite Ea. apply C2.
      intros jx Hjx Eq. destruct (Sw jx Hjx) as [B1 B1']. rewrite B1', <- Ea in Eq.
      apply Hdis in Eq; [|assumption|assumption]. destruct (Hnl jx Hjx). subst ix. lia. }
    assert (Hinw : forall ix, in_range ix (vdims x) -> elem m2 r (shift_at d t ix) = elem m x ix).
    { intros ix Hix. destruct (Hw m2 ix Hix) as [W1 W2]. rewrite <- W2. destruct (Hnl ix Hix) as [N1 N2].
      destruct (elem m x ix) as [v|] eqn:Ev; [|exfalso; now apply (Hrd x Hx ix Hix)].
      rewrite (B2 ix c0 v); [|assumption| |].
      - f_equal. pose proof (cth R) as T. rewrite (ARadd_0_l (Rth_ARth (Eqsth _) (Eq_ext _ _ _) T)). reflexivity.
      - rewrite (proj2 (Hw m1 ix Hix)). apply A3; [exact W1|]. rewrite N1. fold t. lia.
      - now rewrite Hxm. }
    split; [|split; [|split; [|split]]].
    * rewrite total_app. cbn. fold n t. lia.
    * intros b' a Hne. rewrite C2; [now apply A2|]. intros ix Hix Eq. apply vaddr_blk in Eq. cbn in Eq. congruence.
    * intros ix Hix Hge. rewrite Hout; [apply A3; [assumption|fold t; lia]|assumption|lia].
    * intros ix Hix. destruct (Z_lt_dec (nth d ix 0) t) as [H1|H1]; [rewrite Hout by (try assumption; lia); now apply A4|].
      destruct (Z_le_dec (t + n) (nth d ix 0)) as [H2|H2]; [rewrite Hout by (try assumption; lia); now apply A4|].
      (* inside the window *)
      assert (Hix' : in_range (set_nth d (nth d ix 0 - t) ix) (vdims x)).
      { assert (Ex : vdims x = set_nth d n dd).
        { unfold dd, n. rewrite set_of_del; [reflexivity|lia|lia|]. now symmetry. }
        rewrite Ex. apply in_range_set; [assumption|lia]. }
      assert (Hsh' : shift_at d t (set_nth d (nth d ix 0 - t) ix) = ix).
      { assert (Hli : (d < length ix)%nat) by (apply in_range_length in Hix; lia). unfold shift_at.
        apply list_nth0_ext; [now rewrite !Proofs_View.set_nth_length|].
        intros k Hk. rewrite !Proofs_View.set_nth_length in Hk.
        rewrite !Proofs_View.nth_set_nth by (rewrite ?Proofs_View.set_nth_length; lia). rewrite Nat.eqb_refl.
        destruct (k =? d)%nat eqn:Ek; [|reflexivity]. apply Nat.eqb_eq in Ek. subst. lia. }
      rewrite <- Hsh', Hinw by assumption. now apply Hrd.
    * intros pre x' post ix Ed Hix. destruct post as [|z post _] using rev_ind.
      { change (pre ++ [x']) with (pre ++ [x']) in Ed. apply app_inj_tail in Ed as [-> ->]. now apply Hinw. }
      assert (Ed' : done = pre ++ x' :: post).
      { change (pre ++ x' :: post ++ [z]) with (pre ++ (x' :: post) ++ [z]) in Ed. rewrite app_assoc in Ed.
        now apply app_inj_tail in Ed as [-> _]. }
      assert (Hx' : In x' l) by (rewrite El, Ed'; apply in_or_app; left; apply in_or_app; right; now left).
      destruct (Hsh x' Hx') as [Hdx' Hdel'].
      assert (Hp0 : 0 <= total_side d pre).
      { apply Hfl. rewrite El, Ed'. intros v Hv. apply in_or_app; left; apply in_or_app. now left. }
      assert (Hpo : 0 <= total_side d post).
      { apply Hfl. rewrite El, Ed'. intros v Hv. apply in_or_app; left; apply in_or_app. right. now right. }
      assert (Hpt : total_side d pre + nth d (vdims x') 0 <= t).
      { unfold t. rewrite Ed', total_app. change (total_side d (x' :: post)) with (nth d (vdims x') 0 + total_side d post). lia. }
      pose proof Hix as Hix2. apply in_range_nth in Hix2 as [Hl Hnn]. specialize (Hnn d ltac:(lia)).
      rewrite Hout; [now apply (A5 pre x' post)| |].
      -- assert (Ex : dd = set_nth d (total_side d l) (vdims x')).
         { unfold dd. rewrite <- (set_of_del d (vdims x') (vdims x0) 0) by (try assumption; lia).
           assert (G : forall a b' (v : list Z), set_nth d a (set_nth d b' v) = set_nth d a v).
           { clear. induction d; intros a b' [|q v]; cbn; try reflexivity. f_equal. apply IHd. }
           now rewrite !G. }
         rewrite Ex. apply in_range_set; [assumption|]. lia.
      -- left. rewrite Proofs_View.nth_set_nth by lia. rewrite Nat.eqb_refl. lia.
Qed.
