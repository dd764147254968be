(* Proofs_CView.v -- loops over the elements of a complex view. *)
From Verif Require Import Base BaseFacts Model_Index Model_View Model_Tensor Model_Ops Model_RView Model_CView Spec_Index Spec_View Spec_Tensor Spec_RView Spec_CView
  Proofs_Axes Proofs_Index Proofs_View Proofs_Tensor Proofs_Tensor2 Proofs_Tensor3 Proofs_Convolve2 Proofs_Ops2 Proofs_Ops3 Proofs_RView Proofs_RView2 Proofs_RView3 Proofs_RView4 Proofs_RView5 Proofs_RView6.
Local Open Scope Z_scope.

(* indices with one more entry at the end *)
Lemma in_range_snoc ix k dims n : in_range ix dims -> 0 <= k < n -> in_range (ix ++ [k]) (dims ++ [n]).
Proof. intros H Hk. apply Forall2_app; [exact H|]. now repeat constructor. Qed.
Lemma in_range_snoc_inv jx dims n : in_range jx (dims ++ [n]) -> exists ix k, jx = ix ++ [k] /\ in_range ix dims /\ 0 <= k < n.
Proof.
  intro H. apply Forall2_app_inv_r in H as (ix & kx & H1 & H2 & ->). inversion H2 as [|k ? kx' ? Hk H3]; subst. inversion H3; subst. eauto.
Qed.
Lemma snoc_cancel (ix jx : list Z) a b : ix ++ [a] = jx ++ [b] -> ix = jx /\ a = b.
Proof. intro H. apply app_inj_tail in H. exact H. Qed.
Lemma eqlb_snoc ix jx a b : length ix = length jx -> eqlb (ix ++ [a]) (jx ++ [b]) = eqlb ix jx && (a =? b).
Proof.
  revert jx. induction ix as [|i ix IH]; intros [|j jx] L; try discriminate; cbn [app eqlb].
  - destruct (a =? b); reflexivity.
  - rewrite IH by (cbn in L; lia). now rewrite andb_assoc.
Qed.

(* whether a cell belongs to an element of v is decidable *)
Lemma classic_elem v (b a : Z) : (exists jx, in_range jx (vdims v) /\ vaddr v jx = Ok (b, a)) \/ (forall jx, in_range jx (vdims v) -> vaddr v jx <> Ok (b, a)).
Proof.
  destruct (existsb (fun jx => match vaddr v jx with Ok (b', a') => (b' =? b) && (a' =? a) | _ => false end) (all_indices (vdims v))) eqn:E.
  - left. apply existsb_exists in E as (jx & Hj & E). apply in_all_indices in Hj. exists jx. split; [exact Hj|]. destruct (vaddr v jx) as [[b' a']| |]; try discriminate. do 2 f_equal; lia.
  - right. intros jx Hj Ej. apply not_true_iff_false in E. apply E. apply existsb_exists. exists jx. split; [now apply in_all_indices|]. rewrite Ej. now rewrite !Z.eqb_refl.
Qed.

Section Cx.
Context {R : cring}.
Add Ring RrCV : (cth R).
Notation memR := (mem (car R)).
Notation C := (CxRing R).
Implicit Types (v w r x y : view) (m : memR) (M : list Z -> R).

(* the complex value M holds at ix *)
Definition cx (M : list Z -> R) (ix : list Z) : C := (M (ix ++ [0]), M (ix ++ [1])).
Definition part (k : Z) (p : C) : R := if k =? 0 then fst p else snd p.
Lemma part0 p : part 0 p = fst p. Proof. reflexivity. Qed.
Lemma part1 p : part 1 p = snd p. Proof. reflexivity. Qed.
(* the value of jx=(ix,k) after element ix has been given value p *)
Definition cupd (M : list Z -> R) (ix : list Z) (p : C) : list Z -> R :=
  fun jx => if eqlb (removelast jx) ix then part (last jx 0) p else M jx.
Lemma cupd_at M ix jx k p : cupd M ix p (jx ++ [k]) = if eqlb jx ix then part k p else M (jx ++ [k]).
Proof. unfold cupd. now rewrite removelast_last, last_last. Qed.

Lemma cget_ok m v dims ix : cshape v dims -> readable m v -> in_range ix dims -> cget v ix m = Ok (celem m v ix).
Proof.
  intros [W D] Rv Hix. unfold cget, celem. rewrite !get_at_ok; try assumption; [reflexivity| |]; rewrite D; apply in_range_snoc; try assumption; lia.
Qed.
Lemma cput_becomes m0 m v dims M ix t : cshape v dims -> distinct_cells v -> becomes v M m0 m -> in_range ix dims ->
  exists m', cput v ix t m = Ok m' /\ becomes v (cupd M ix t) m0 m'.
Proof.
  intros [W D] Hd B Hix. assert (I0 : in_range (ix ++ [0]) (vdims v)) by (rewrite D; apply in_range_snoc; [assumption|lia]). assert (I1 : in_range (ix ++ [1]) (vdims v)) by (rewrite D; apply in_range_snoc; [assumption|lia]).
  unfold cput. destruct (put_becomes m0 m v M (ix ++ [0]) (fst t) W Hd B I0) as (m1 & -> & B1). cbn [bind].
  destruct (put_becomes m0 m1 v _ (ix ++ [1]) (snd t) W Hd B1 I1) as (m2 & -> & B2). exists m2. split; [reflexivity|]. revert B2. apply becomes_ext.
  intros jx Hjx. rewrite D in Hjx. apply in_range_snoc_inv in Hjx as (ix' & k & -> & Hx & Hk). rewrite cupd_at.
  assert (L : length ix' = length ix) by (now rewrite (in_range_length _ _ Hx), (in_range_length _ _ Hix)). rewrite !eqlb_snoc by assumption.
  destruct (eqlb ix' ix); cbn [andb]; [|reflexivity]. unfold part. destruct (Z.eqb_spec k 1), (Z.eqb_spec k 0); try lia; reflexivity.
Qed.
Lemma cinc_becomes m0 m v dims M ix t : cshape v dims -> distinct_cells v -> becomes v M m0 m -> in_range ix dims ->
  exists m', cinc v ix t m = Ok m' /\ becomes v (cupd M ix (cadd (cx M ix) t)) m0 m'.
Proof.
  intros [W D] Hd B Hix. assert (I0 : in_range (ix ++ [0]) (vdims v)) by (rewrite D; apply in_range_snoc; [assumption|lia]). assert (I1 : in_range (ix ++ [1]) (vdims v)) by (rewrite D; apply in_range_snoc; [assumption|lia]).
  unfold cinc. destruct (inc_becomes m0 m v M (ix ++ [0]) (fst t) W Hd B I0) as (m1 & -> & B1). cbn [bind].
  destruct (inc_becomes m0 m1 v _ (ix ++ [1]) (snd t) W Hd B1 I1) as (m2 & -> & B2). exists m2. split; [reflexivity|]. revert B2. apply becomes_ext.
  intros jx Hjx. rewrite D in Hjx. apply in_range_snoc_inv in Hjx as (ix' & k & -> & Hx & Hk). rewrite cupd_at.
  assert (L : length ix' = length ix) by (now rewrite (in_range_length _ _ Hx), (in_range_length _ _ Hix)). rewrite !eqlb_snoc by (assumption || reflexivity).
  rewrite eqlb_refl. cbn [andb Z.eqb]. destruct (eqlb ix' ix); cbn [andb]; [|reflexivity]. unfold part. destruct (Z.eqb_spec k 1), (Z.eqb_spec k 0); try lia; subst; reflexivity.
Qed.

(* m' is m except for elements of r other than ix *)
Definition quiet (m m' : memR) r ix : Prop :=
  forall b a, (forall jx, in_range jx (vdims r) -> vaddr r jx = Ok (b, a) -> removelast jx = ix) -> m' b a = m b a.

(* a loop that visits every element once and gives it the value G old (g ix) *)
Lemma cloop (step : list Z -> C -> memR -> res memR) (G : C -> C -> C) (T : list Z -> memR -> res C) (g : list Z -> C) r dims m :
  cshape r dims -> distinct_cells r -> readable m r ->
  (forall M m1 ix, in_range ix dims -> becomes r M m m1 -> exists m2, step ix (g ix) m1 = Ok m2 /\ becomes r (cupd M ix (G (cx M ix) (g ix))) m m2) ->
  (forall ix m', in_range ix dims -> quiet m m' r ix -> T ix m' = Ok (g ix)) ->
  exists m', foldM (fun ix m => do t <- T ix m; step ix t m) (all_indices dims) m = Ok m' /\
    readable m' r /\ (forall ix, in_range ix dims -> celem m' r ix = G (celem m r ix) (g ix)) /\ untouched m m' r.
Proof.
  intros [W D] Hd Rr Hs HT.
  destruct (foldM_inv (fun done m' => becomes r (fun jx => if existsb (eqlb (removelast jx)) done then part (last jx 0) (G (celem m r (removelast jx)) (g (removelast jx))) else elem0 m r jx) m m')
    (fun ix m => do t <- T ix m; step ix t m) (all_indices dims) m) as (m' & E & B).
  - now apply becomes_start.
  - intros done ix rest m1 El B1. assert (Hx : in_range ix dims) by (apply in_all_indices; rewrite El; apply in_or_app; right; now left).
    assert (Nd : ~ In ix done) by (pose proof (all_indices_nodup dims) as N; rewrite El in N; apply NoDup_remove_2 in N; intro H; apply N; apply in_or_app; now left).
    rewrite (HT ix m1 Hx).
    + cbn [bind]. destruct (Hs _ m1 ix Hx B1) as (m2 & -> & B2). exists m2. split; [reflexivity|]. revert B2. apply becomes_ext.
      intros jx Hjx. rewrite D in Hjx. apply in_range_snoc_inv in Hjx as (ix' & k & -> & Hx' & Hk). rewrite cupd_at. rewrite !removelast_last, !last_last, existsb_app. cbn [existsb]. rewrite orb_false_r.
      assert (Ed : existsb (eqlb ix) done = false). { apply not_true_is_false. intro H. apply existsb_exists in H as (z & Hz & Ez). apply eqlb_eq in Ez as <-. contradiction. }
      destruct (eqlb ix' ix) eqn:Ex; rewrite ?orb_true_r, ?orb_false_r; [|reflexivity]. apply eqlb_eq in Ex as ->. unfold cx. rewrite !removelast_last, !Ed. reflexivity.
    + intros b a Hq. destruct B1 as [A U]. destruct (m1 b a) as [u|] eqn:Em.
      * (* either an element of r at ix or outside *)
        destruct (classic_elem r b a) as [(jx & Hj & Ej)|Hn].
        -- pose proof (Hq jx Hj Ej) as Eq. pose proof (A jx Hj) as Aj. unfold elem in Aj. rewrite Ej in Aj. rewrite Em in Aj. injection Aj as ->.
           rewrite Eq. assert (Ed : existsb (eqlb ix) done = false). { apply not_true_is_false. intro H. apply existsb_exists in H as (z & Hz & Ez). apply eqlb_eq in Ez as <-. contradiction. }
           rewrite Ed. pose proof (readable_elem m r jx Rr Hj) as E0. unfold elem in E0. rewrite Ej in E0. now rewrite E0.
        -- rewrite <- Em. now apply U.
      * destruct (classic_elem r b a) as [(jx & Hj & Ej)|Hn].
        -- pose proof (A jx Hj) as Aj. unfold elem in Aj. rewrite Ej in Aj. congruence.
        -- rewrite <- Em. now apply U.
  - exists m'. split; [exact E|]. destruct (becomes_end _ _ _ _ B) as (B1 & B2 & B3). split; [exact B1|]. split; [|exact B2]. intros ix Hix. unfold celem at 1.
    assert (Ee : existsb (eqlb ix) (all_indices dims) = true) by (apply existsb_exists; exists ix; split; [now apply in_all_indices|apply eqlb_refl]).
    rewrite !B3 by (rewrite D; apply in_range_snoc; [assumption|lia]). rewrite !removelast_last, !last_last, Ee. cbn [part Z.eqb]. now destruct (G _ _).
Qed.
End Cx.
