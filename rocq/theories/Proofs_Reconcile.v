(* Proofs_Reconcile.v -- lemmas on products of tensors on different devices. *)
From Verif Require Import Base BaseFacts Model_Index Model_View Model_Tensor Model_Cuda Model_DevAssign Model_Ops Model_RView Model_CuBlas Model_Reconcile Spec_Index Spec_View Spec_Tensor Spec_Cuda
  Proofs_Index Proofs_View Proofs_Tensor Proofs_Tensor2 Proofs_Tensor3 Proofs_Cuda Proofs_DevAssign Spec_RView Proofs_CuBlas Prop_CuBlas.
Local Open Scope Z_scope.

(* on r's device, or stored row by row *)
Definition movable (rd xd : Z) (x : view) : Prop := xd = rd \/ (vdims x <> [] /\ vstr x = strides_of 1 (vdims x) /\ Forall (fun s => s < 2147483647) (vstr x)).
(* only r and the blocks nx, ny change *)
Definition gains_with {R : cring} (nx ny : Z) (r : view) (g : list Z -> R) (m m' : mem (car R)) : Prop :=
  (forall ix v, in_range ix (vdims r) -> elem m r ix = Some v -> elem m' r ix = Some (cadd v (g ix))) /\
  (forall b a, b <> nx -> b <> ny -> (forall ix, in_range ix (vdims r) -> vaddr r ix <> Ok (b, a)) -> m' b a = m b a).

Section S.
Context {R : cring}.
Notation memR := (mem (car R)).
Implicit Types m : memR.
Lemma other_elem v m m1 nb ix : vwf v -> readable m v -> (forall a, m nb a = None) -> (forall b a, b <> nb -> m1 b a = m b a) -> in_range ix (vdims v) -> elem m1 v ix = elem m v ix.
Proof.
  intros [L _] Rv N U I. rewrite !elem_cell by assumption. unfold at_. apply U. intro E. apply (Rv ix I). rewrite elem_cell by assumption. unfold at_. rewrite E. apply N.
Qed.
Lemma other_read v m m1 nb : vwf v -> readable m v -> (forall a, m nb a = None) -> (forall b a, b <> nb -> m1 b a = m b a) -> readable m1 v.
Proof. intros W Rv N U ix I. rewrite (other_elem v m m1 nb) by assumption. now apply Rv. Qed.
(* one operand brought to the device of r *)
Lemma bring_ok (junk : R) ord f nb rd xd r x m : vwf r -> readable m r -> vwf x -> readable m x -> disjoint_views r x -> movable rd xd x -> (forall a, m nb a = None) ->
  exists x' m1, bring junk ord (S f) nb rd xd x m = Ok (x', m1) /\ vdims x' = vdims x /\ vstr x' = vstr x /\ vwf x' /\ readable m1 x' /\ disjoint_views r x' /\
    (forall ix, in_range ix (vdims x) -> elem m1 x' ix = elem m x ix) /\ (forall b a, b <> nb -> m1 b a = m b a).
Proof.
  intros Wr Rr_ Wx Rx D M N. unfold bring. destruct (Z.eqb_spec xd rd) as [->|Ne]; [exists x, m; repeat split; auto; apply Wx|].
  destruct M as [|(H1 & H2 & H3)]; [contradiction|]. destruct (copy_rows junk ord f nb rd xd x m Wx Rx H1 H2 H3 N) as (m1 & E & A & U). exists (fresh_view nb (vdims x)), m1.
  split; [exact E|]. split; [reflexivity|]. split; [now rewrite H2|]. assert (W' : vwf (fresh_view nb (vdims x))). { destruct Wx as [L Nn]. split; [cbn [fresh_view vdims vstr]; now rewrite <- H2|exact Nn]. }
  split; [exact W'|]. split; [intros ix I; cbn [fresh_view vdims] in I; rewrite A by exact I; now apply Rx|]. split; [|split; assumption].
  intros ix jx I J E'. rewrite (vaddr_cell r) in E' by (apply Wr || assumption). rewrite (vaddr_cell (fresh_view nb (vdims x))) in E' by (apply W' || assumption).
  apply (Rr_ ix I). rewrite elem_cell by (apply Wr || assumption). injection E' as Eb _. unfold at_. cbn [cell fst] in *. unfold cell. cbn [fst snd]. rewrite Eb. apply N.
Qed.
(* both *)
Lemma reconcile_ok (junk : R) ord f nx ny rd xd yd lambda (G : memR -> view -> view -> list Z -> R) r x y m : operands r [x; y] m -> movable rd xd x -> movable rd yd y -> (forall a, m nx a = None) -> (forall a, m ny a = None) -> nx <> ny ->
  (forall x' y' m1, operands r [x'; y'] m1 -> vdims x' = vdims x -> vstr x' = vstr x -> vdims y' = vdims y -> vstr y' = vstr y -> exists m', lambda r x' y' m1 = Ok m' /\ gains r (G m1 x' y') m1 m') ->
  (forall x' y' m1 ix, in_range ix (vdims r) -> (forall jx, in_range jx (vdims x) -> elem m1 x' jx = elem m x jx) -> (forall jx, in_range jx (vdims y) -> elem m1 y' jx = elem m y jx) -> G m1 x' y' ix = G m x y ix) ->
  exists m', reconcile junk ord (S f) nx ny rd xd yd lambda r x y m = Ok m' /\ gains_with nx ny r (G m x y) m m'.
Proof.
  intros (Wr & Dr & Rr_ & F) Mx My Nx Ny Ne Hl HG. inversion F as [|? ? (Wx & Rx & Jx) F2]; subst. inversion F2 as [|? ? (Wy & Ry & Jy) _]; subst.
  destruct (bring_ok junk ord f nx rd xd r x m Wr Rr_ Wx Rx Jx Mx Nx) as (x' & m1 & E1 & Dx & Sx & Wx' & Rx' & Jx' & A1 & U1).
  assert (N1 : forall a, m1 ny a = None) by (intro a; rewrite U1 by congruence; apply Ny).
  assert (Rr1 : readable m1 r) by (now apply (other_read r m m1 nx)). assert (Ry1 : readable m1 y) by (now apply (other_read y m m1 nx)).
  destruct (bring_ok junk ord f ny rd yd r y m1 Wr Rr1 Wy Ry1 Jy My N1) as (y' & m2 & E2 & Dy & Sy & Wy' & Ry' & Jy' & A2 & U2).
  assert (O2 : operands r [x'; y'] m2). { split; [exact Wr|]. split; [exact Dr|]. split; [now apply (other_read r m1 m2 ny)|]. repeat constructor; try (apply Wx'); try (apply Wy'); try assumption. now apply (other_read x' m1 m2 ny). }
  destruct (Hl x' y' m2 O2 Dx Sx Dy Sy) as (m' & E3 & G1 & G2). exists m'. unfold reconcile. rewrite E1. cbn [bind]. rewrite E2. cbn [bind]. split; [exact E3|]. split.
  - intros ix v I Ev. assert (E : elem m2 r ix = Some v). { rewrite (other_elem r m1 m2 ny) by assumption. rewrite (other_elem r m m1 nx) by assumption. exact Ev. }
    rewrite (G1 ix v I E). f_equal. f_equal. apply HG; [exact I| |].
    + intros jx J. rewrite (other_elem x' m1 m2 ny) by (assumption || now rewrite Dx). now apply A1.
    + intros jx J. rewrite A2 by exact J. now apply (other_elem y m m1 nx).
  - intros b a Bx By Hr. rewrite G2 by exact Hr. rewrite U2 by exact By. now apply U1.
Qed.
End S.
