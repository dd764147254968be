(* Proofs_BGprod2.v -- the lambdas of the products and quotients of batched and gridded tensors. *)
From Verif Require Import Base BaseFacts Model_Index Model_View Spec_Index Proofs_Index Spec_View Proofs_View Model_Tensor Spec_Tensor Proofs_Tensor Proofs_Tensor2 Proofs_Tensor3 Model_Threads Model_BG Spec_BG Proofs_BG Proofs_BG2 Proofs_BG3 Prop_BG Model_BGprod Spec_BGprod Proofs_BGprod.
From Coq Require Import Permutation.
Local Open Scope Z_scope.

Lemma right3 x y z c vs : right_cells [x; y; z] (c, vs) -> exists vx vy vz, vs = [vx; vy; vz] /\ is_cell x (fst c) (snd c) vx /\ is_cell y (fst c) (snd c) vy /\ is_cell z (fst c) (snd c) vz.
Proof.
  unfold right_cells. cbn [fst snd]. intro F. inversion F as [|? vx ? vs1 Hx F1]; subst. inversion F1 as [|? vy ? vs2 Hy F2]; subst. inversion F2 as [|? vz ? vs3 Hz F3]; subst. inversion F3; subst. exists vx, vy, vz. auto.
Qed.
Lemma right4 x y z w c vs : right_cells [x; y; z; w] (c, vs) -> exists vx vy vz vw, vs = [vx; vy; vz; vw] /\ is_cell x (fst c) (snd c) vx /\ is_cell y (fst c) (snd c) vy /\ is_cell z (fst c) (snd c) vz /\ is_cell w (fst c) (snd c) vw.
Proof.
  unfold right_cells. cbn [fst snd]. intro F. inversion F as [|? vx ? vs1 Hx F1]; subst. inversion F1 as [|? vy ? vs2 Hy F2]; subst. inversion F2 as [|? vz ? vs3 Hz F3]; subst. inversion F3 as [|? vw ? vs4 Hw F4]; subst. inversion F4; subst. exists vx, vy, vz, vw. repeat split; assumption.
Qed.
Lemma scalar_addr v : vwf v -> vdims v = [] -> vaddr v [] = Ok (vblk v, voff v).
Proof. intros [L _] E. rewrite E in L. destruct (vstr v) eqn:Es; [|discriminate]. unfold vaddr. rewrite Es. cbn. f_equal. f_equal. lia. Qed.

Section Lam.
Context {R : cring}.
Add Ring Rring2 : (cth R).
Variable cj : R -> R.
Variable dv : R -> R -> R.
Notation memR := (mem (car R)).

(* the elements of a source, in the middle of the traversal *)
Lemma src_elem (m0 m : memR) r x b g c i ix v jx : shaped x b g c -> source_ok m0 r x -> untouched m0 m (bv r) -> is_cell x i ix v -> in_range jx c ->
  elem m v jx = Some (elem0 m0 (bv x) (pre b g (i, ix) ++ jx)).
Proof.
  intros Hs (Rx & Dx) U Hc Hj. destruct (cell_facts _ _ _ _ _ _ _ Hs Hc) as (_ & _ & Fx). destruct (Fx jx Hj) as (I & _).
  rewrite (cell_elem m x b g c i ix) by assumption. rewrite (disjoint_elem m0 m (bv r) (bv x)) by assumption. apply elem0_some. now apply Rx.
Qed.
Lemma src_val (m0 m : memR) r x b g c cl v jx jx' : shaped x b g c -> source_ok m0 r x -> untouched m0 m (bv r) -> is_cell x (fst cl) (snd cl) v -> in_range jx c -> (c = [] \/ jx' = jx) ->
  elem m v jx = Some (val m0 x b g c (cl, jx')).
Proof.
  intros Hs So U Hc Hj Hj'. rewrite (src_elem m0 m r x b g c (fst cl) (snd cl) v jx) by assumption. f_equal. unfold val. f_equal. rewrite <- surjective_pairing.
  destruct Hj' as [->| ->]; [inversion Hj; subst; now rewrite part_none, app_nil_r|now rewrite part_cells].
Qed.
Lemma src_readable (m0 m : memR) r x b g c i ix v : shaped x b g c -> source_ok m0 r x -> untouched m0 m (bv r) -> is_cell x i ix v -> readable m v.
Proof.
  intros Hs So U Hc jx Hj. destruct (cell_facts _ _ _ _ _ _ _ Hs Hc) as (Ed & _ & _). rewrite Ed in Hj. rewrite (src_elem m0 m r x b g c i ix) by assumption. discriminate.
Qed.
Lemma src_scalar (m0 m : memR) r x b g cl v jx : shaped x b g [] -> source_ok m0 r x -> untouched m0 m (bv r) -> is_cell x (fst cl) (snd cl) v -> scalar v m = Ok (val m0 x b g [] (cl, jx)).
Proof.
  intros Hs So U Hc. destruct (cell_facts _ _ _ _ _ _ _ Hs Hc) as (Ed & W & _). assert (E := src_val m0 m r x b g [] cl v [] jx Hs So U Hc ltac:(constructor) ltac:(now left)).
  unfold elem in E. rewrite scalar_addr in E by assumption. unfold scalar, loadA, load. cbn [fst snd]. now rewrite E.
Qed.
(* elementwise operations on a cell *)
Lemma each_step (m : memR) f (h : list R -> R) rv vs : (forall v us, length us = length vs -> f v us = cadd v (h us)) -> vwf rv -> distinct_cells rv -> readable m rv ->
  Forall (fun v => vwf v /\ vdims v = vdims rv /\ readable m v /\ disjoint_views rv v) vs ->
  exists m', reg_or_each f rv vs m = Ok m' /\ (forall jx us, in_range jx (vdims rv) -> Forall2 (fun v u => elem m v jx = Some u) vs us -> elem m' rv jx = Some (cadd (elem0 m rv jx) (h us))) /\ untouched m m' rv.
Proof.
  intros Hf W D Rm F. destruct (reg_or_each_ok f rv vs m W D Rm) as (m' & E & El & U).
  { eapply Forall_impl; [|exact F]. intros v (A1 & A2 & A3 & A4). repeat split; try assumption; try apply A1. intros ix jx Hi Hj Ea. exfalso. exact (A4 ix jx Hi Hj Ea). }
  exists m'. split; [assumption|]. split; [|assumption]. intros jx us Hj Hu. destruct (El jx Hj) as (v & us' & Ev & Eu & Er).
  assert (us' = us). { clear - Hu Eu. revert us' Eu. induction Hu; intros us' Eu; inversion Eu; subst; [reflexivity|]. f_equal; [congruence|now apply IHHu]. }
  subst us'. rewrite Er. rewrite Hf by (symmetry; eapply F2_len; eassumption). unfold elem0. now rewrite Ev.
Qed.
Lemma addc_step (m0 m : memR) r br gr cd y by_ gy x bx gx c rv yv xv g : shaped r br gr cd -> shaped y by_ gy cd -> shaped x bx gx [] -> distinct_cells (bv r) -> source_ok m0 r y -> source_ok m0 r x ->
  is_cell r (fst c) (snd c) rv -> is_cell y (fst c) (snd c) yv -> is_cell x (fst c) (snd c) xv -> readable m (bv r) -> untouched m0 m (bv r) ->
  exists m', do_addc g [rv; yv; xv] m = Ok m' /\ (forall jx, in_range jx cd -> elem m' rv jx = Some (cadd (elem0 m rv jx) (cmul (g (val m0 x bx gx [] (c, jx))) (val m0 y by_ gy cd (c, jx))))) /\ untouched m m' rv.
Proof.
  intros Hr Hy Hx D Sy Sx Cr Cy Cx Rm U. destruct (cell_facts _ _ _ _ _ _ _ Hr Cr) as (Er & Wr & _). destruct (cell_facts _ _ _ _ _ _ _ Hy Cy) as (Ey & Wy & _).
  unfold do_addc. rewrite (src_scalar m0 m r x bx gx c xv []) by assumption. cbn [bind]. unfold tv_addc. rewrite Er, Ey, Z.eqb_refl. cbn [assrt].
  set (q := g (val m0 x bx gx [] (c, []))).
  destruct (each_step m (f_addc q) (fun us => cmul q (hd c0 us)) rv [yv]) as (m' & E & El & Um).
  - intros v [|u [|? ?]]; try discriminate. reflexivity.
  - assumption.
  - eapply cell_distinct; [exact Hr|exact Cr|assumption].
  - eapply cell_readable; [exact Hr|exact Cr|assumption].
  - constructor; [|constructor]. split; [assumption|]. split; [congruence|]. split; [eapply src_readable; [exact Hy|eassumption|eassumption|eassumption]|]. eapply cell_disjoint; [exact Hr|exact Hy|eassumption|eassumption|apply Sy].
  - exists m'. split; [assumption|]. split; [|assumption]. intros jx Hj. rewrite (El jx [val m0 y by_ gy cd (c, jx)]); [|now rewrite Er|constructor; [|constructor]; eapply src_val; eauto].
    cbn [hd]. unfold q, val. now rewrite !part_none.
Qed.
Lemma addCX_step (m0 m : memR) r br gr cd y by_ gy x bx gx c rv yv xv : shaped r br gr cd -> shaped y by_ gy cd -> shaped x bx gx [] -> distinct_cells (bv r) -> source_ok m0 r y -> source_ok m0 r x ->
  is_cell r (fst c) (snd c) rv -> is_cell y (fst c) (snd c) yv -> is_cell x (fst c) (snd c) xv -> readable m (bv r) -> untouched m0 m (bv r) ->
  exists m', do_addCX cj [rv; yv; xv] m = Ok m' /\ (forall jx, in_range jx cd -> elem m' rv jx = Some (cadd (elem0 m rv jx) (cmul (val m0 x bx gx [] (c, jx)) (cj (val m0 y by_ gy cd (c, jx)))))) /\ untouched m m' rv.
Proof.
  intros Hr Hy Hx D Sy Sx Cr Cy Cx Rm U. destruct (cell_facts _ _ _ _ _ _ _ Hr Cr) as (Er & Wr & _). destruct (cell_facts _ _ _ _ _ _ _ Hy Cy) as (Ey & Wy & _).
  unfold do_addCX. rewrite (src_scalar m0 m r x bx gx c xv []) by assumption. cbn [bind]. unfold tv_add_CX. rewrite Er, Ey, Z.eqb_refl. cbn [assrt].
  set (q := val m0 x bx gx [] (c, [])).
  destruct (each_step m (f_addCX cj q) (fun us => cmul q (cj (hd c0 us))) rv [yv]) as (m' & E & El & Um).
  - intros v [|u [|? ?]]; try discriminate. reflexivity.
  - assumption.
  - eapply cell_distinct; [exact Hr|exact Cr|assumption].
  - eapply cell_readable; [exact Hr|exact Cr|assumption].
  - constructor; [|constructor]. split; [assumption|]. split; [congruence|]. split; [eapply src_readable; [exact Hy|eassumption|eassumption|eassumption]|]. eapply cell_disjoint; [exact Hr|exact Hy|eassumption|eassumption|apply Sy].
  - exists m'. split; [assumption|]. split; [|assumption]. intros jx Hj. rewrite (El jx [val m0 y by_ gy cd (c, jx)]); [|now rewrite Er|constructor; [|constructor]; eapply src_val; eauto].
    cbn [hd]. unfold q, val. now rewrite !part_none.
Qed.
Lemma prod_step (m0 m : memR) r br gr cd x bx gx y by_ gy c rv xv yv f (h : R -> R -> R) : (forall v a b, f v [a; b] = cadd v (h a b)) ->
  shaped r br gr cd -> shaped x bx gx cd -> shaped y by_ gy cd -> distinct_cells (bv r) -> source_ok m0 r x -> source_ok m0 r y ->
  is_cell r (fst c) (snd c) rv -> is_cell x (fst c) (snd c) xv -> is_cell y (fst c) (snd c) yv -> readable m (bv r) -> untouched m0 m (bv r) ->
  exists m', reg_or_each f rv [xv; yv] m = Ok m' /\ (forall jx, in_range jx cd -> elem m' rv jx = Some (cadd (elem0 m rv jx) (h (val m0 x bx gx cd (c, jx)) (val m0 y by_ gy cd (c, jx))))) /\ untouched m m' rv.
Proof.
  intros Hf Hr Hx Hy D Sx Sy Cr Cx Cy Rm U. destruct (cell_facts _ _ _ _ _ _ _ Hr Cr) as (Er & Wr & _). destruct (cell_facts _ _ _ _ _ _ _ Hy Cy) as (Ey & Wy & _). destruct (cell_facts _ _ _ _ _ _ _ Hx Cx) as (Ex & Wx & _).
  destruct (each_step m f (fun us => h (nth 0 us c0) (nth 1 us c0)) rv [xv; yv]) as (m' & E & El & Um).
  - intros v [|u [|u' [|? ?]]]; try discriminate. intros _. apply Hf.
  - assumption.
  - eapply cell_distinct; [exact Hr|exact Cr|assumption].
  - eapply cell_readable; [exact Hr|exact Cr|assumption].
  - constructor; [|constructor; [|constructor]].
    + split; [assumption|]. split; [congruence|]. split; [eapply src_readable; [exact Hx|eassumption|eassumption|eassumption]|]. eapply cell_disjoint; [exact Hr|exact Hx|eassumption|eassumption|apply Sx].
    + split; [assumption|]. split; [congruence|]. split; [eapply src_readable; [exact Hy|eassumption|eassumption|eassumption]|]. eapply cell_disjoint; [exact Hr|exact Hy|eassumption|eassumption|apply Sy].
  - exists m'. split; [assumption|]. split; [|assumption]. intros jx Hj. rewrite (El jx [val m0 x bx gx cd (c, jx); val m0 y by_ gy cd (c, jx)]); [reflexivity|now rewrite Er|].
    constructor; [eapply (src_val m0 m r x); eauto|]. constructor; [eapply (src_val m0 m r y); eauto|constructor].
Qed.
(* inner products *)
Lemma cinp_ok x y (m : memR) (X Y : list Z -> R) : vwf x -> vwf y -> vdims y = vdims x -> (forall ix, in_range ix (vdims x) -> elem m x ix = Some (X ix)) -> (forall ix, in_range ix (vdims x) -> elem m y ix = Some (Y ix)) ->
  tv_cinp cj x y m = Ok (rsum (map (fun ix => cmul (cj (X ix)) (Y ix)) (all_indices (vdims x)))).
Proof.
  clear dv. intros Wx Wy D EX EY. unfold tv_cinp. rewrite D, eqlb_refl. cbn [assrt].
  pose proof Wx as [Lx Nx]. pose proof Wy as [Ly Ny]. rewrite D in Ly.
  destruct (is_regular (vstr x) (vdims x)) as [a| |] eqn:Ea.
  2,3: unfold is_regular in Ea; rewrite Lx, Nat.eqb_refl in Ea; discriminate.
  destruct (is_regular (vstr y) (vdims x)) as [b| |] eqn:Eb.
  2,3: unfold is_regular in Eb; rewrite Ly, Nat.eqb_refl in Eb; discriminate.
  cbn [bind]. destruct (a && b) eqn:E.
  - apply andb_prop in E as [-> ->]. apply is_regular_iff in Ea; [|assumption]. apply is_regular_iff in Eb; [|assumption].
    unfold forZ. rewrite asize_prod, <- row_major_addrs by assumption. rewrite foldM_map.
    rewrite (sum_loop _ _ (fun ix => cmul (cj (X ix)) (Y ix))); [f_equal; ring|].
    intros ix t Hix. apply in_all_indices in Hix.
    pose proof (EX ix Hix) as E1. pose proof (EY ix Hix) as E2. assert (Hiy : in_range ix (vdims y)) by congruence.
    rewrite elem_cell in E1 by assumption. rewrite elem_cell in E2 by (try assumption; apply Wy).
    unfold at_, cell in E1, E2. cbn in E1, E2. rewrite Ea in E1. rewrite Eb in E2.
    unfold load. rewrite E1. cbn. rewrite E2. reflexivity.
  - assert (Hne : vdims x <> []).
    { intro Dn. rewrite Dn in Ea, Eb, Lx, Ly. destruct (vstr x), (vstr y); try discriminate.
      cbn in Ea, Eb. injection Ea as <-. injection Eb as <-. discriminate. }
    rewrite foreach_index_fold by assumption.
    rewrite (sum_loop _ _ (fun ix => cmul (cj (X ix)) (Y ix))); [f_equal; ring|].
    intros ix t Hix. apply in_all_indices in Hix. pose proof (EX ix Hix) as E1. pose proof (EY ix Hix) as E2. unfold elem in E1, E2.
    destruct (vaddr x ix) as [[bx ax]| |]; try discriminate. destruct (vaddr y ix) as [[by_ ay]| |]; try discriminate.
    cbn [bind]. unfold loadA, load. cbn [fst snd]. rewrite E1. cbn [bind]. rewrite E2. reflexivity.
Qed.
Lemma rmw_scalar (m : memR) r g i ix br gr rv (h : R -> R) : shaped r br gr [] -> is_cell r i ix rv -> readable m (bv r) -> (forall v, h v = cadd v g) ->
  exists m', rmw (fun v _ => h v) (vblk rv, voff rv) [] m = Ok m' /\ (forall jx, in_range jx [] -> elem m' rv jx = Some (cadd (elem0 m rv jx) g)) /\ untouched m m' rv.
Proof.
  clear cj dv. intros Hr Cr Rm Hh. destruct (cell_facts _ _ _ _ _ _ _ Hr Cr) as (Er & Wr & _). assert (Rv := cell_readable m r br gr [] i ix rv Hr Cr Rm).
  assert (A := scalar_addr rv Wr Er). assert (Rv0 := Rv [] ltac:(rewrite Er; constructor)). unfold elem in Rv0. rewrite A in Rv0. unfold rmw, loadA, load. cbn [fst snd loads]. destruct (m (vblk rv) (voff rv)) as [v|] eqn:Ev; [|congruence]. cbn [bind]. unfold store. rewrite Ev.
  eexists. split; [reflexivity|]. split.
  - intros jx Hj. inversion Hj; subst. unfold elem0, elem. rewrite A. unfold upd. rewrite Ev, !Z.eqb_refl. cbn [andb]. now rewrite Hh.
  - intros b a Hba. specialize (Hba [] ltac:(rewrite Er; constructor)). rewrite A in Hba. unfold upd. destruct ((b =? vblk rv) && (a =? voff rv)) eqn:E; [|reflexivity]. exfalso. apply Hba. f_equal. f_equal; lia.
Qed.
Lemma inp_step (m0 m : memR) r br gr cd x bx gx y by_ gy c rv xv yv : shaped r br gr [] -> shaped x bx gx cd -> shaped y by_ gy cd -> source_ok m0 r x -> source_ok m0 r y ->
  is_cell r (fst c) (snd c) rv -> is_cell x (fst c) (snd c) xv -> is_cell y (fst c) (snd c) yv -> readable m (bv r) -> untouched m0 m (bv r) ->
  exists m', do_inp cj [xv; yv; rv] m = Ok m' /\ (forall jx, in_range jx [] -> elem m' rv jx = Some (cadd (elem0 m rv jx) (rsum (map (fun jx => cmul (val m0 x bx gx cd (c, jx)) (cj (val m0 y by_ gy cd (c, jx)))) (all_indices cd))))) /\ untouched m m' rv.
Proof.
  clear dv. intros Hr Hx Hy Sx Sy Cr Cx Cy Rm U. destruct (cell_facts _ _ _ _ _ _ _ Hy Cy) as (Ey & Wy & _). destruct (cell_facts _ _ _ _ _ _ _ Hx Cx) as (Ex & Wx & _).
  unfold do_inp. rewrite (cinp_ok yv xv m (fun jx => val m0 y by_ gy cd (c, jx)) (fun jx => val m0 x bx gx cd (c, jx))); [|assumption|assumption|congruence| |].
  2: (intros jx Hj; rewrite Ey in Hj; eapply (src_val m0 m r y); eauto). 2: (intros jx Hj; rewrite Ey in Hj; eapply (src_val m0 m r x); eauto).
  cbn [bind]. rewrite Ey.
  rewrite (rsum_ext R (fun ix => cmul (cj (val m0 y by_ gy cd (c, ix))) (val m0 x bx gx cd (c, ix))) (fun jx => cmul (val m0 x bx gx cd (c, jx)) (cj (val m0 y by_ gy cd (c, jx)))) (all_indices cd)) by (intros; ring).
  eapply rmw_scalar; [exact Hr|exact Cr|assumption|reflexivity].
Qed.
Lemma div_back1_step (m0 m : memR) yg bg_ gg cd rg br gr x bx gx y by_ gy c rv xv gv yv : shaped yg bg_ gg [] -> shaped rg br gr cd -> shaped x bx gx cd -> shaped y by_ gy [] -> source_ok m0 yg rg -> source_ok m0 yg x -> source_ok m0 yg y ->
  is_cell yg (fst c) (snd c) gv -> is_cell rg (fst c) (snd c) rv -> is_cell x (fst c) (snd c) xv -> is_cell y (fst c) (snd c) yv -> readable m (bv yg) -> untouched m0 m (bv yg) ->
  exists m', do_div_back1 cj dv [rv; xv; gv; yv] m = Ok m' /\ (forall jx, in_range jx [] -> elem m' gv jx = Some (cadd (elem0 m gv jx)
    (copp (dv (rsum (map (fun jx => cmul (cj (val m0 x bx gx cd (c, jx))) (val m0 rg br gr cd (c, jx))) (all_indices cd))) (cj (cmul (val m0 y by_ gy [] (c, [])) (val m0 y by_ gy [] (c, [])))))))) /\ untouched m m' gv.
Proof.
  intros Hg Hr Hx Hy Sr Sx Sy Cg Cr Cx Cy Rm U. destruct (cell_facts _ _ _ _ _ _ _ Hr Cr) as (Er & Wr & _). destruct (cell_facts _ _ _ _ _ _ _ Hx Cx) as (Ex & Wx & _).
  unfold do_div_back1. rewrite (cinp_ok xv rv m (fun jx => val m0 x bx gx cd (c, jx)) (fun jx => val m0 rg br gr cd (c, jx))); [|assumption|assumption|congruence| |].
  2: (intros jx Hj; rewrite Ex in Hj; eapply (src_val m0 m yg x); eauto). 2: (intros jx Hj; rewrite Ex in Hj; eapply (src_val m0 m yg rg); eauto).
  cbn [bind]. rewrite Ex. rewrite (src_scalar m0 m yg y by_ gy c yv []) by assumption. cbn [bind].
  eapply rmw_scalar; [exact Hg|exact Cg|assumption|]. intro v. ring.
Qed.
(* matrix products *)
Lemma mprod_step (m0 m : memR) r br gr x bx gx y by_ gy p n q c rv xv yv : shaped r br gr [p; q] -> shaped x bx gx [p; n] -> shaped y by_ gy [n; q] -> distinct_cells (bv r) -> source_ok m0 r x -> source_ok m0 r y ->
  is_cell r (fst c) (snd c) rv -> is_cell x (fst c) (snd c) xv -> is_cell y (fst c) (snd c) yv -> readable m (bv r) -> untouched m0 m (bv r) ->
  exists m', do_mprod [rv; xv; yv] m = Ok m' /\ (forall jx, in_range jx [p; q] -> elem m' rv jx = Some (cadd (elem0 m rv jx) (rsum (map (fun k => cmul (val m0 x bx gx [p; n] (c, [nth 0 jx 0; k])) (val m0 y by_ gy [n; q] (c, [k; nth 1 jx 0]))) (zrange n))))) /\ untouched m m' rv.
Proof.
  intros Hr Hx Hy D Sx Sy Cr Cx Cy Rm U. destruct (cell_facts _ _ _ _ _ _ _ Hr Cr) as (Er & Wr & _). destruct (cell_facts _ _ _ _ _ _ _ Hy Cy) as (Ey & Wy & _). destruct (cell_facts _ _ _ _ _ _ _ Hx Cx) as (Ex & Wx & _).
  assert (Rv := cell_readable m r br gr _ _ _ rv Hr Cr Rm).
  destruct (mprod_ok rv xv yv p n q m) as (m' & E & El & Um); try assumption; [eapply cell_distinct; [exact Hr|exact Cr|assumption]|eapply src_readable; [exact Hx|eassumption|eassumption|eassumption]|eapply src_readable; [exact Hy|eassumption|eassumption|eassumption]| | |].
  { eapply cell_disjoint; [exact Hr|exact Hx|eassumption|eassumption|apply Sx]. } { eapply cell_disjoint; [exact Hr|exact Hy|eassumption|eassumption|apply Sy]. }
  exists m'. split; [exact E|]. split; [|assumption]. intros jx Hj. apply in_range_2_inv in Hj as (i & j & -> & Hi & Hj). rewrite (El i j (elem0 m rv [i; j]) Hi Hj) by (apply elem0_some; apply Rv; rewrite Er; now apply in_range_2). do 2 f_equal.
  apply rsum_ext. intros k Hk. apply in_zrange in Hk. cbn [nth]. f_equal.
  - unfold elem0 at 1. now rewrite (src_val m0 m r x bx gx [p; n] c xv [i; k] [i; k]) by (try assumption; try (now apply in_range_2); try (now right)).
  - unfold elem0 at 1. now rewrite (src_val m0 m r y by_ gy [n; q] c yv [k; j] [k; j]) by (try assumption; try (now apply in_range_2); try (now right)).
Qed.
Lemma mprod_AH_step (m0 m : memR) r br gr x bx gx y by_ gy p n q c rv xv yv : shaped r br gr [p; q] -> shaped x bx gx [p; n] -> shaped y by_ gy [q; n] -> distinct_cells (bv r) -> source_ok m0 r x -> source_ok m0 r y ->
  is_cell r (fst c) (snd c) rv -> is_cell x (fst c) (snd c) xv -> is_cell y (fst c) (snd c) yv -> readable m (bv r) -> untouched m0 m (bv r) ->
  exists m', do_mprod_AH [rv; xv; yv] m = Ok m' /\ (forall jx, in_range jx [p; q] -> elem m' rv jx = Some (cadd (elem0 m rv jx) (rsum (map (fun k => cmul (val m0 x bx gx [p; n] (c, [nth 0 jx 0; k])) (val m0 y by_ gy [q; n] (c, [nth 1 jx 0; k]))) (zrange n))))) /\ untouched m m' rv.
Proof.
  intros Hr Hx Hy D Sx Sy Cr Cx Cy Rm U. destruct (cell_facts _ _ _ _ _ _ _ Hr Cr) as (Er & Wr & _). destruct (cell_facts _ _ _ _ _ _ _ Hy Cy) as (Ey & Wy & _). destruct (cell_facts _ _ _ _ _ _ _ Hx Cx) as (Ex & Wx & _).
  assert (Rv := cell_readable m r br gr _ _ _ rv Hr Cr Rm).
  destruct (mprod_AT_ok rv xv yv p n q m) as (m' & E & El & Um); try assumption; [eapply cell_distinct; [exact Hr|exact Cr|assumption]|eapply src_readable; [exact Hx|eassumption|eassumption|eassumption]|eapply src_readable; [exact Hy|eassumption|eassumption|eassumption]| | |].
  { eapply cell_disjoint; [exact Hr|exact Hx|eassumption|eassumption|apply Sx]. } { eapply cell_disjoint; [exact Hr|exact Hy|eassumption|eassumption|apply Sy]. }
  exists m'. split; [exact E|]. split; [|assumption]. intros jx Hj. apply in_range_2_inv in Hj as (i & j & -> & Hi & Hj). rewrite (El i j (elem0 m rv [i; j]) Hi Hj) by (apply elem0_some; apply Rv; rewrite Er; now apply in_range_2). do 2 f_equal.
  apply rsum_ext. intros k Hk. apply in_zrange in Hk. cbn [nth]. f_equal.
  - unfold elem0 at 1. now rewrite (src_val m0 m r x bx gx [p; n] c xv [i; k] [i; k]) by (try assumption; try (now apply in_range_2); try (now right)).
  - unfold elem0 at 1. now rewrite (src_val m0 m r y by_ gy [q; n] c yv [j; k] [j; k]) by (try assumption; try (now apply in_range_2); try (now right)).
Qed.
End Lam.
