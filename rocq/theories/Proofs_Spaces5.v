From Coq Require Import Reals Lra.
From Verif Require Import Base BaseFacts Model_Index Model_View Model_Tensor Model_Ops Model_CView Model_Spaces
  Spec_Index Spec_View Spec_Tensor Spec_Ops Spec_Spaces Proofs_Axes Proofs_Index Proofs_View Proofs_View2 Proofs_Tensor Proofs_Tensor2 Proofs_Tensor3 Proofs_Ops
  Proofs_Program Proofs_Sparse Proofs_Spaces Proofs_Spaces2 Proofs_Spaces3 Proofs_Spaces4.
Local Open Scope Z_scope.

Section Herm.
Context {H : hfield}.
Notation A := (hr H).
Notation memA := (mem (car A)).
Notation resid := (leftover H).
Add Ring RrSp5 : (cth A).
Hypothesis Hc : forall x, hconj H x = x.

(* the vectors Q 0 .. Q (k-1) followed by P 0, P 1, .. *)
Definition follow (k : Z) (Q P : Z -> Z -> A) : Z -> Z -> A := fun j => if j <? k then Q j else P (j - k).

Lemma unit_vals b n i (m : memA) : 0 <= n -> 0 <= i < n ->
  exists m', put_at (fresh_view b [n]) [i] c1 (Model_Tensor.alloc c0 b (asize [n]) m) = Ok m' /\ vals m' (fresh_view b [n]) n (unitv i) /\
    (forall b' a, b' <> b -> m' b' a = m b' a).
Proof.
  intros Hn Hi. assert (Hnn : nonneg [n]) by (repeat constructor; assumption).
  assert (Ad : forall p, vaddr (fresh_view b [n]) [p] = Ok (b, p)) by (intro p; unfold vaddr, offs; cbn; do 2 f_equal; destruct p; lia).
  unfold put_at. rewrite Ad. cbn [bind fst snd].
  assert (E0 : forall p, 0 <= p < n -> Model_Tensor.alloc (V := A) c0 b (asize [n]) m b p = Some c0).
  { intros p Hp. pose proof (fresh_readable (c0 : A) b [n] m [p] Hnn (proj2 (in_range1 p n) Hp)) as E. unfold elem in E. now rewrite Ad in E. }
  unfold store. rewrite (E0 i Hi). eexists. split; [reflexivity|]. split.
  - intros p Hp. unfold elem. rewrite Ad. unfold unitv, upd. rewrite Z.eqb_refl. destruct (p =? i) eqn:E; cbn; [reflexivity|]. now apply E0.
  - intros b' a Nb. unfold upd. replace (b' =? b) with false by lia. cbn [andb]. now apply alloc_other.
Qed.

Section Loop.
Variables (A0 M : view) (n k bu : Z) (Q : Z -> Z -> A) (norms : Z -> R) (thr : R).
Hypothesis Hn : 0 <= n.
Hypothesis Hk : 0 <= k.
Hypothesis Ht : (0 <= thr)%R.
Hypothesis GA : gmat A0 n k.
Hypothesis GM : gmat M n n.
Hypothesis B1 : vblk A0 <> vblk M.
Hypothesis B2 : vblk A0 <> bu.
Hypothesis B3 : vblk M <> bu.
Hypothesis HN : forall j, 0 <= j < k -> norms j = 1%R.
Hypothesis OQ : orthonormal H n k Q.

Lemma comp_step_ok i l P (m : memA) : 0 <= i < n -> 0 <= l <= i -> orthonormal H n (k + l) (follow k Q P) -> (forall j p, l <= j -> P j p = c0) ->
  columns H m A0 n k Q -> columns H m M n n P ->
  exists l' P' m', comp_step H A0 M norms n k bu thr i (l, m) = Ok (l', m') /\ l <= l' <= i + 1 /\
    orthonormal H n (k + l') (follow k Q P') /\ (forall j p, l' <= j -> P' j p = c0) /\ (forall j p, j < l -> P' j p = P j p) /\
    columns H m' A0 n k Q /\ columns H m' M n n P' /\ (forall b a, b <> vblk M -> b <> bu -> m' b a = m b a) /\
    (sqrt (len2 H n (resid n (k + l') (follow k Q P') (unitv i))) <= thr)%R.
Proof.
  intros Hi Hl O PZ CA CM. unfold comp_step, zeros.
  destruct (unit_vals bu n i m Hn Hi) as (m1 & E1 & V1 & U1). set (c := fresh_view bu [n]) in *. rewrite E1. cbn [bind].
  pose proof (gvec_fresh bu n Hn : gvec c n) as Gc. set (Q2 := follow k Q P) in *.
  assert (CA1 : columns H m1 A0 n k Q) by (eapply cols_other; [exact CA|]; intro a; apply U1; congruence).
  assert (CM1 : columns H m1 M n n P) by (eapply cols_other; [exact CM|]; intro a; apply U1; congruence).
  (* along the columns of A *)
  destruct (forZ_inv (fun j m' => vals m' c n (resid n j Q2 (unitv i)) /\ untouched m1 m' c) k
    (fun j m => if Rlt_dec (1 / 100000) (norms j)
       then do t <- col j A0; do s <- tv_hinp H c t m; tv_subc c t (cmul s (hinj H (/ norms j)%R)) m else Ok m) m1) as (m2 & E2 & V2 & U2).
  - lia.
  - split; [|intros b a _; reflexivity]. eapply vals_ext; [exact V1|]. intros p Hp. unfold leftover, comb. cbn. rewrite rsum_nil. ring.
  - intros j m' Hj (V & U). rewrite HN by assumption. destruct (Rlt_dec (1 / 100000) 1) as [_|N]; [|lra].
    destruct (col_ok A0 n k j GA Hj) as (t & Et & Gt & Bt & At). rewrite Et. cbn [bind].
    assert (C : columns H m' A0 n k Q) by (apply (cols_keep m1 m' A0 n k Q c CA1); [cbn; congruence|exact U]).
    assert (Vt : vals m' t n (Q j)) by (eapply cols_vals; eauto).
    rewrite (vec_inp c t n _ _ m' Gc Gt V Vt). cbn [bind].
    assert (Dj : disjoint_views c t) by (apply (vec_disjoint c t n n); auto; cbn; congruence).
    destruct (vec_subc c t n _ _ (cmul (ip H n (resid n j Q2 (unitv i)) (Q j)) (hinj H (/ 1)%R)) m' Gc Gt Dj V Vt) as (m3 & E3 & V3 & U3).
    exists m3. split; [exact E3|]. split; [|intros b a Hn'; rewrite U3 by assumption; now apply U].
    eapply vals_ext; [exact V3|]. intros p Hp. cbn beta. rewrite Rinv_1, hinj_1.
    assert (Ej : Q2 j = Q j) by (unfold Q2, follow; now replace (j <? k) with true by lia).
    rewrite <- (resid_step n j Q2 (unitv i)); [|lia|intros x y Hx Hy; apply O; lia]. rewrite Ej.
    rewrite <- (ip_conj n (Q j)), Hc. ring.
  - rewrite E2. cbn [bind].
    assert (CM2 : columns H m2 M n n P) by (apply (cols_keep m1 m2 M n n P c CM1); [cbn; congruence|exact U2]).
    (* along the columns of M *)
    destruct (forZ_inv (fun j m' => vals m' c n (resid n (k + j) Q2 (unitv i)) /\ untouched m2 m' c) l
      (fun j m => do t <- col j M; do s <- tv_hinp H c t m; tv_subc c t s m) m2) as (m3 & E3 & V3 & U3).
    + lia.
    + split; [now rewrite Z.add_0_r|]. intros b a _. reflexivity.
    + intros j m' Hj (V & U). destruct (col_ok M n n j GM ltac:(lia)) as (t & Et & Gt & Bt & At). rewrite Et. cbn [bind].
      assert (C : columns H m' M n n P) by (apply (cols_keep m2 m' M n n P c CM2); [cbn; congruence|exact U]).
      assert (Vt : vals m' t n (P j)) by (eapply cols_vals; eauto; lia).
      rewrite (vec_inp c t n _ _ m' Gc Gt V Vt). cbn [bind].
      assert (Dj : disjoint_views c t) by (apply (vec_disjoint c t n n); auto; cbn; congruence).
      destruct (vec_subc c t n _ _ (ip H n (resid n (k + j) Q2 (unitv i)) (P j)) m' Gc Gt Dj V Vt) as (m4 & E4 & V4 & U4).
      exists m4. split; [exact E4|]. split; [|intros b a Hn'; rewrite U4 by assumption; now apply U].
      eapply vals_ext; [exact V4|]. intros p Hp. cbn beta.
      assert (Ej : Q2 (k + j) = P j) by (unfold Q2, follow; replace (k + j <? k) with false by lia; f_equal; lia).
      rewrite Z.add_assoc. rewrite <- (resid_step n (k + j) Q2 (unitv i)); [|lia|intros x y Hx Hy; apply O; lia]. rewrite Ej.
      rewrite <- (ip_conj n (P j)), Hc. ring.
    + rewrite E3. cbn [bind]. set (w := resid n (k + l) Q2 (unitv i)) in *. rewrite (vec_norm c n w m3 Gc V3). cbn [bind].
      assert (CM3 : columns H m3 M n n P) by (apply (cols_keep m2 m3 M n n P c CM2); [cbn; congruence|exact U3]).
      assert (U13 : forall b a, b <> bu -> m3 b a = m b a).
      { intros b a Hb. rewrite (untouched_blk m2 m3 c b a U3) by exact Hb. rewrite (untouched_blk m1 m2 c b a U2) by exact Hb. now apply U1. }
      destruct (Rlt_dec thr (sqrt (len2 H n w))) as [Lt|Ge].
      * destruct (col_ok M n n l GM ltac:(lia)) as (t & Et & Gt & Bt & At). rewrite Et. cbn [bind].
        assert (Vt : vals m3 t n (P l)) by (eapply cols_vals; eauto; lia).
        assert (Dj : disjoint_views t c) by (apply (vec_disjoint t c n n); auto; cbn; congruence).
        destruct (vec_addc t c n _ _ (hinj H (1 / sqrt (len2 H n w))%R) m3 Gt Gc Dj Vt V3) as (m4 & E4 & V4 & U4). rewrite E4. cbn [bind].
        set (q := unit_of n w). set (P' := extend l P q).
        assert (Nz : len2 H n w <> 0%R) by (intro Z0; rewrite Z0, sqrt_0 in Lt; lra).
        assert (EQ : forall j p, 0 <= j < k + (l + 1) -> 0 <= p < n -> extend (k + l) Q2 q j p = follow k Q P' j p).
        { intros j p Hj Hp. unfold extend, Q2, follow, P', extend. destruct (j =? k + l) eqn:Ej.
          - replace (j <? k) with false by lia. now replace (j - k =? l) with true by lia.
          - destruct (j <? k); [reflexivity|]. now replace (j - k =? l) with false by lia. }
        assert (O' : orthonormal H n (k + (l + 1)) (extend (k + l) Q2 q)).
        { rewrite Z.add_assoc. apply orthonormal_extend; [exact O|now apply unit_len|]. intros j Hj. unfold q, unit_of. rewrite ip_scale_r.
          unfold w. rewrite resid_orth by assumption. ring. }
        exists (l + 1), P', m4. split; [reflexivity|]. split; [lia|]. split; [now apply (orthonormal_ext n _ _ _ O')|].
        split; [|split; [|split; [|split; [|split]]]].
        -- intros j p Hj. unfold P', extend. replace (j =? l) with false by lia. apply PZ. lia.
        -- intros j p Hj. unfold P', extend. now replace (j =? l) with false by lia.
        -- eapply cols_other; [exact CA|]. intro a. rewrite (untouched_blk m3 m4 t _ a U4) by congruence. apply U13. congruence.
        -- eapply cols_ext; [apply (cols_put m3 m4 M n n P t l _ GM CM3 ltac:(lia) Gt At V4 U4)|].
           intros j p Hj Hp. unfold P', extend. destruct (j =? l); [|reflexivity]. rewrite PZ by lia. unfold q, unit_of. ring.
        -- intros b a Hb Hb'. rewrite (untouched_blk m3 m4 t b a U4) by congruence. now apply U13.
        -- (* the vector just added takes up all that was left *)
           rewrite (len2_ext n _ (fun _ => c0)).
           ++ replace (len2 H n (fun _ => c0)) with 0%R; [now rewrite sqrt_0|]. apply (hinj_eq H). rewrite ip_len2, ip_zero_r. apply hinj_0.
           ++ intros p Hp. rewrite (resid_ext n (k + (l + 1)) (follow k Q P') (extend (k + l) Q2 q) (unitv i) (unitv i)); auto.
              2:{ intros j p' Hj Hp'. symmetry. now apply EQ. }
              rewrite Z.add_assoc in *. rewrite <- (resid_step n (k + l) (extend (k + l) Q2 q) (unitv i)) by (try assumption; lia).
              assert (Er : forall p, 0 <= p < n -> resid n (k + l) (extend (k + l) Q2 q) (unitv i) p = w p).
              { apply resid_ext; auto. intros j p' Hj Hp'. unfold extend. now replace (j =? k + l) with false by lia. }
              assert (Ee : extend (k + l) Q2 q (k + l) = q) by (unfold extend; now rewrite Z.eqb_refl). rewrite Ee. rewrite Er by assumption.
              rewrite (ip_ext n q q _ w) by auto. unfold q, unit_of. rewrite ip_scale_l, hconj_inj, <- ip_len2.
              set (L := len2 H n w) in *. assert (0 < sqrt L)%R by (apply sqrt_lt_R0; pose proof (len2_pos n w); unfold L in *; lra).
              replace (cmul (cmul (hinj H (1 / sqrt L)%R) (hinj H L)) (cmul (hinj H (1 / sqrt L)%R) (w p)))
                with (cmul (cmul (cmul (hinj H (1 / sqrt L)%R) (hinj H L)) (hinj H (1 / sqrt L)%R)) (w p)) by ring.
              rewrite <- !hinj_mul. replace (1 / sqrt L * L * (1 / sqrt L))%R with 1%R; [rewrite hinj_1; ring|].
              assert (E : L = (sqrt L * sqrt L)%R) by (symmetry; apply sqrt_def; apply len2_pos). set (y := sqrt L) in *. rewrite E. field. lra.
      * exists l, P, m3. split; [reflexivity|]. split; [lia|]. split; [exact O|]. split; [exact PZ|]. split; [reflexivity|].
        split; [eapply cols_other; [exact CA|]; intro a; apply U13; congruence|]. split; [exact CM3|].
        split; [intros b a Hb Hb'; now apply U13|]. fold Q2. fold w. lra.
Qed.

(* a longer family leaves no more *)
Lemma resid_shorter K K' Q' v : 0 <= K <= K' -> orthonormal H n K' Q' -> (len2 H n (resid n K' Q' v) <= len2 H n (resid n K Q' v))%R.
Proof.
  intros HK O. rewrite !resid_len; [|intros x y Hx Hy; apply O; lia|assumption].
  replace K' with (K + (K' - K)) by lia. rewrite zrange_app by lia. rewrite map_app.
  pose proof (rsum_app RRing (map (fun j => hsq H (ip H n (Q' j) v)) (zrange K)) (map (fun j => hsq H (ip H n (Q' j) v)) (map (Z.add K) (zrange (K' - K))))) as E.
  cbn [cadd RRing] in E. cbn [car RRing] in *. rewrite E. rewrite map_map.
  pose proof (rs_nonneg (fun x => hsq H (ip H n (Q' (K + x)) v)) (zrange (K' - K)) (fun x _ => hsq_pos H _)) as P. cbn [car RRing] in *. lra.
Qed.

Lemma comp_loop_ok (m : memA) : columns H m A0 n k Q -> columns H m M n n (fun _ _ => c0) ->
  exists l P m', forZ n (comp_step H A0 M norms n k bu thr) (0, m) = Ok (l, m') /\ 0 <= l <= n /\
    orthonormal H n (k + l) (follow k Q P) /\ columns H m' A0 n k Q /\ columns H m' M n n P /\
    (forall b a, b <> vblk M -> b <> bu -> m' b a = m b a) /\
    (forall i, 0 <= i < n -> (sqrt (len2 H n (resid n (k + l) (follow k Q P) (unitv i))) <= thr)%R).
Proof.
  intros CA CM.
  destruct (forZ_inv (fun i st => exists P, 0 <= fst st <= i /\ orthonormal H n (k + fst st) (follow k Q P) /\ (forall j p, fst st <= j -> P j p = c0) /\
      columns H (snd st) A0 n k Q /\ columns H (snd st) M n n P /\ (forall b a, b <> vblk M -> b <> bu -> snd st b a = m b a) /\
      (forall j, 0 <= j < i -> (sqrt (len2 H n (resid n (k + fst st) (follow k Q P) (unitv j))) <= thr)%R)) n
    (comp_step H A0 M norms n k bu thr) (0, m)) as ([l m'] & E & P & Hl & O & _ & C1 & C2 & U & Cl).
  - exact Hn.
  - exists (fun _ _ => c0). cbn [fst snd]. split; [lia|]. split.
    + rewrite Z.add_0_r. apply (orthonormal_ext n k Q); [exact OQ|]. intros j p Hj Hp. unfold follow. now replace (j <? k) with true by lia.
    + split; [reflexivity|]. split; [exact CA|]. split; [exact CM|]. split; [reflexivity|]. intros j Hj. lia.
  - intros i [l m1] Hi (P & Hl & O & PZ & C1 & C2 & U & Cl). cbn [fst snd] in *.
    destruct (comp_step_ok i l P m1 Hi Hl O PZ C1 C2) as (l' & P' & m2 & E2 & Hl' & O' & PZ' & Same & C1' & C2' & U' & Cl').
    exists (l', m2). split; [exact E2|]. exists P'. cbn [fst snd]. split; [lia|]. split; [exact O'|]. split; [exact PZ'|]. split; [exact C1'|]. split; [exact C2'|].
    split; [intros b a Hb Hb'; rewrite U' by assumption; now apply U|]. intros j Hj. destruct (Z.eq_dec j i) as [->|Ne]; [exact Cl'|].
    eapply Rle_trans; [|exact (Cl j ltac:(lia))]. apply sqrt_le_1_alt.
    eapply Rle_trans; [apply (resid_shorter (k + l) (k + l') _ (unitv j)); [lia|exact O']|]. apply Req_le.
    apply len2_ext. apply resid_ext; auto. intros x p Hx Hp. unfold follow. destruct (x <? k) eqn:E; [reflexivity|]. apply Same. lia.
  - cbn [fst snd] in *. exists l, P, m'. repeat (split; [assumption|]). exact Cl.
Qed.
(* with a small threshold nothing is missed *)
Lemma comp_complete K Q' : 0 <= K -> orthonormal H n K Q' -> (forall i, 0 <= i < n -> (sqrt (len2 H n (resid n K Q' (unitv i))) <= thr)%R) ->
  (IZR n * (thr * thr) < 1)%R -> K = n.
Proof.
  intros HK O Cl Sm. pose proof (orthonormal_le n K Q' Hn HK O) as Le. pose proof (bessel n K Q' Hn HK O) as E.
  assert (L : (@rsum RRing (map (fun p => len2 H n (resid n K Q' (unitv p))) (zrange n)) <= @rsum RRing (map (fun _ => thr * thr) (zrange n)))%R).
  { assert (G : forall l, (forall p, In p l -> 0 <= p < n) ->
      (@rsum RRing (map (fun p => len2 H n (resid n K Q' (unitv p))) l) <= @rsum RRing (map (fun _ => thr * thr) l))%R).
    { induction l as [|p l IH]; intro In_; cbn [map]; [rewrite !rsum_nil; apply Rle_refl|]. rewrite !rsum_cons. cbn [cadd RRing].
      apply Rplus_le_compat; [|apply IH; intros; apply In_; now right]. specialize (Cl p (In_ p (or_introl eq_refl))).
      pose proof (len2_pos n (resid n K Q' (unitv p))) as P0. rewrite <- (sqrt_def _ P0). pose proof (sqrt_pos (len2 H n (resid n K Q' (unitv p)))). nra. }
    apply G. intros p Hp. now apply in_zrange in Hp. }
  rewrite rs_const in L by assumption. cbn [car RRing] in *. rewrite E in L.
  assert (IZR n < IZR (K + 1))%R by (rewrite plus_IZR; lra). apply lt_IZR in H0. lia.
Qed.
End Loop.
End Herm.
