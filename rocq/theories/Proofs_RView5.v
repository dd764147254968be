(* Proofs_RView5.v -- rotations, scalings, reductions and broadcasts as functions of the elements of one view. *)
From Verif Require Import Base BaseFacts Model_Index Model_View Model_Tensor Model_Ops Model_RView Spec_Index Spec_View Spec_Tensor Spec_RView
  Proofs_Axes Proofs_Index Proofs_View Proofs_Tensor Proofs_Tensor2 Proofs_Tensor3 Proofs_Convolve2 Proofs_Ops2 Proofs_Ops3 Proofs_RView Proofs_RView2 Proofs_RView3 Proofs_RView4.
Local Open Scope Z_scope.

Section Img.
Context {R : cring}.
Add Ring RrRV5 : (cth R).
Notation memR := (mem (car R)).
Implicit Types (v w r x : view) (m : memR) (M G : list Z -> R).

Lemma untouched_same {V} (m : mem V) v : untouched m m v.
Proof. intros b a _. reflexivity. Qed.
Lemma becomes_start m v : readable m v -> becomes v (elem0 m v) m m.
Proof. intro H. split; [|apply untouched_same]. intros ix Hix. now apply readable_elem. Qed.
Lemma becomes_end m m' v M : becomes v M m m' -> readable m' v /\ untouched m m' v /\ forall ix, in_range ix (vdims v) -> elem0 m' v ix = M ix.
Proof. intros [A B]. split; [intros ix Hix; rewrite A by assumption; congruence|]. split; [assumption|]. intros ix Hix. unfold elem0. now rewrite A. Qed.
Lemma becomes_ext m m' v M G : (forall ix, in_range ix (vdims v) -> M ix = G ix) -> becomes v M m m' -> becomes v G m m'.
Proof. intros H [A B]. split; [|assumption]. intros ix Hix. rewrite A by assumption. now rewrite H. Qed.
Lemma becomes_read m m' v : readable m' v -> untouched m m' v -> becomes v (elem0 m' v) m m'.
Proof. intros H U. split; [|assumption]. intros ix Hix. now apply readable_elem. Qed.
Lemma get_becomes m0 m v M ix : vwf v -> becomes v M m0 m -> in_range ix (vdims v) -> get_at v ix m = Ok (M ix).
Proof. intros W B Hix. destruct (becomes_end _ _ _ _ B) as (Rd & _ & E). rewrite get_at_ok by assumption. now rewrite E. Qed.
Lemma put_becomes m0 m v M ix t : vwf v -> distinct_cells v -> becomes v M m0 m -> in_range ix (vdims v) ->
  exists m', put_at v ix t m = Ok m' /\ becomes v (fun jx => if eqlb jx ix then t else M jx) m0 m'.
Proof.
  intros [L _] Hd [A B] Hix. unfold put_at. pose proof (A ix Hix) as Ai. unfold elem in Ai. destruct (vaddr v ix) as [[b a]| |] eqn:E; try discriminate. cbn [bind fst snd].
  unfold store. rewrite Ai. eexists. split; [reflexivity|]. split.
  - intros jx Hjx. unfold elem. destruct (eqlb jx ix) eqn:Ej.
    + apply eqlb_eq in Ej as ->. rewrite E. apply upd_same.
    + pose proof (A jx Hjx) as Aj. unfold elem in Aj. destruct (vaddr v jx) as [[b' a']| |] eqn:E'; try discriminate. unfold upd. destruct ((b' =? b) && (a' =? a)) eqn:Eb; [|assumption].
      exfalso. assert (jx = ix) as -> by (apply Hd; try assumption; rewrite E, E'; do 2 f_equal; lia). rewrite eqlb_refl in Ej. discriminate.
  - intros b' a' Hn. unfold upd. destruct ((b' =? b) && (a' =? a)) eqn:Eb; [|now apply B]. exfalso. apply (Hn ix Hix). rewrite E. do 2 f_equal; lia.
Qed.
Lemma inc_becomes m0 m v M ix t : vwf v -> distinct_cells v -> becomes v M m0 m -> in_range ix (vdims v) ->
  exists m', inc_at v ix t m = Ok m' /\ becomes v (fun jx => if eqlb jx ix then cadd (M ix) t else M jx) m0 m'.
Proof.
  intros W Hd B Hix. destruct (put_becomes m0 m v M ix (cadd (M ix) t) W Hd B Hix) as (m' & E & H). exists m'. split; [|exact H]. rewrite <- E. unfold inc_at, put_at.
  pose proof (proj1 B ix Hix) as Ai. unfold elem in Ai. destruct (vaddr v ix) as [[b a]| |] eqn:Ev; try discriminate. cbn [bind]. unfold rmw, loadA, load. cbn [fst snd loads bind]. now rewrite Ai.
Qed.

(* a sequence of steps *)
Lemma fold_becomes {A} (step : A -> memR -> res memR) (g : A -> (list Z -> R) -> list Z -> R) m0 v l :
  (forall a M m, In a l -> becomes v M m0 m -> exists m', step a m = Ok m' /\ becomes v (g a M) m0 m') ->
  forall M m, becomes v M m0 m -> exists m', foldM step l m = Ok m' /\ becomes v (fold_left (fun M a => g a M) l M) m0 m'.
Proof.
  induction l as [|a l IH]; intros H M m B; cbn [foldM fold_left]; [eauto|].
  destruct (H a M m) as (m1 & -> & B1); [now left|assumption|]. cbn [bind]. apply IH; [intros; apply H; [now right|assumption]|assumption].
Qed.
(* steps on the lines of v through index jx of the remaining axes; g changes a line by what it holds *)
Lemma slicewise (step : list Z -> memR -> res memR) (g : (list Z -> R) -> list Z -> R) m0 v dims n0 : vdims v = n0 :: dims ->
  (forall M M' i jx, (forall k, M (k :: jx) = M' (k :: jx)) -> g M (i :: jx) = g M' (i :: jx)) ->
  (forall jx M m, in_range jx dims -> becomes v M m0 m -> exists m', step jx m = Ok m' /\ becomes v (fun ix => if eqlb (tl ix) jx then g M ix else M ix) m0 m') ->
  forall M m, becomes v M m0 m -> exists m', foldM step (all_indices dims) m = Ok m' /\ becomes v (g M) m0 m'.
Proof.
  intros D Loc Hs M m B.
  destruct (foldM_inv (fun done m' => becomes v (fun ix => if existsb (eqlb (tl ix)) done then g M ix else M ix) m0 m') step (all_indices dims) m) as (m' & E & H).
  - exact B.
  - intros done jx rest m1 El B1. assert (Hj : In jx (all_indices dims)) by (rewrite El; apply in_or_app; right; now left).
    destruct (Hs jx _ m1 (proj1 (in_all_indices _ _) Hj) B1) as (m2 & E & B2). exists m2. split; [exact E|]. revert B2. apply becomes_ext. intros ix Hix.
    rewrite D in Hix. destruct ix as [|i kx]; [inversion Hix|]. cbn [tl]. rewrite existsb_app. cbn [existsb]. rewrite orb_false_r.
    destruct (eqlb kx jx) eqn:Ek; rewrite ?orb_true_r, ?orb_false_r; [|reflexivity]. apply eqlb_eq in Ek as ->. apply Loc. intro k. cbn [tl].
    assert (Nd := all_indices_nodup dims). rewrite El in Nd. apply NoDup_remove_2 in Nd.
    destruct (existsb (eqlb jx) done) eqn:Ex; [|reflexivity]. exfalso. apply Nd. apply existsb_exists in Ex as (y & Hy & Ey). apply eqlb_eq in Ey as ->. apply in_or_app. now left.
  - exists m'. split; [exact E|]. revert H. apply becomes_ext. intros ix Hix. rewrite D in Hix. destruct ix as [|i kx]; [inversion Hix|]. inversion Hix; subst.
    replace (existsb (eqlb (tl (i :: kx))) (all_indices dims)) with true; [reflexivity|]. symmetry. apply existsb_exists. exists kx. split; [now apply in_all_indices|apply eqlb_refl].
Qed.

(* ---- rotations and scalings ---- *)
Lemma givens_line (neg : bool) m0 v n0 dims p q a b : vwf v -> distinct_cells v -> vdims v = n0 :: dims -> 0 <= p < n0 -> 0 <= q < n0 -> p <> q ->
  forall M m, becomes v M m0 m ->
  exists m', foldM (fun ix m => do t0 <- get_at v (p :: ix) m; do t1 <- get_at v (q :: ix) m;
      do m1 <- put_at v (p :: ix) (cadd (cmul a t0) (cmul b t1)) m;
      put_at v (q :: ix) (if neg then copp (csub (cmul a t1) (cmul b t0)) else csub (cmul a t1) (cmul b t0)) m1) (all_indices dims) m = Ok m' /\
    becomes v (rotated (if neg then copp c1 else c1) (p, q, (a, b)) M) m0 m'.
Proof.
  intros W Hd D Hp Hq Npq. apply (slicewise _ (rotated (if neg then copp c1 else c1) (p, q, (a, b))) m0 v dims n0 D).
  - intros M M' i jx H. cbn [rotated]. rewrite !H. reflexivity.
  - intros jx M m Hj B. assert (Ip : in_range (p :: jx) (vdims v)) by (rewrite D; now constructor). assert (Iq : in_range (q :: jx) (vdims v)) by (rewrite D; now constructor).
    rewrite (get_becomes m0 m v M (p :: jx)) by assumption. cbn [bind]. rewrite (get_becomes m0 m v M (q :: jx)) by assumption. cbn [bind].
    destruct (put_becomes m0 m v M (p :: jx) (cadd (cmul a (M (p :: jx))) (cmul b (M (q :: jx)))) W Hd B Ip) as (m1 & -> & B1). cbn [bind].
    destruct (put_becomes m0 m1 v _ (q :: jx) (if neg then copp (csub (cmul a (M (q :: jx))) (cmul b (M (p :: jx)))) else csub (cmul a (M (q :: jx))) (cmul b (M (p :: jx)))) W Hd B1 Iq) as (m2 & E2 & B2).
    exists m2. split; [exact E2|]. revert B2. apply becomes_ext. intros ix Hix. rewrite D in Hix. destruct ix as [|i kx]; [inversion Hix|]. cbn [tl rotated eqlb].
    destruct (eqlb kx jx) eqn:Ek; [apply eqlb_eq in Ek as ->|]; rewrite ?andb_true_r, ?andb_false_r; [|reflexivity].
    destruct (i =? q) eqn:Eq; [destruct neg; ring|]. destruct (i =? p) eqn:Ep; [|reflexivity]. reflexivity.
Qed.
Definition good_ops (n0 : Z) (ops : list (Z * Z * (R * R))) : Prop :=
  forall p q ab, In (p, q, ab) ops -> 0 <= p < n0 /\ 0 <= q < n0 /\ p <> q.
Lemma givens2_ok v m n0 n1 ops : vwf v -> distinct_cells v -> vdims v = [n0; n1] -> readable m v -> good_ops n0 ops ->
  exists m', rv2_givens v ops m = Ok m' /\ becomes v (fold_left (fun M op => rotated c1 op M) ops (elem0 m v)) m m'.
Proof.
  intros W Hd D Rv Ho. unfold rv2_givens. apply (fold_becomes _ (rotated c1) m v ops); [|now apply becomes_start].
  intros [[p q] [a b]] M m1 Hin B. destruct (Ho _ _ _ Hin) as (H1 & H2 & H3). rewrite (nd_eq v _ 1 D). cbn [nth]. setoid_rewrite nest1_fold. now apply (givens_line false m v n0 [n1] p q a b).
Qed.
Lemma givens3_ok v m n0 n1 n2 ops : vwf v -> distinct_cells v -> vdims v = [n0; n1; n2] -> readable m v -> good_ops n0 ops ->
  exists m', rv3_givens v ops m = Ok m' /\ becomes v (fold_left (fun M op => rotated (copp c1) op M) ops (elem0 m v)) m m'.
Proof.
  intros W Hd D Rv Ho. unfold rv3_givens. apply (fold_becomes _ (rotated (copp c1)) m v ops); [|now apply becomes_start].
  intros [[p q] [a b]] M m1 Hin B. destruct (Ho _ _ _ Hin) as (H1 & H2 & H3). rewrite !(nd_eq v _ _ D). cbn [nth]. setoid_rewrite nest2_fold. now apply (givens_line true m v n0 [n1; n2] p q a b).
Qed.
Lemma scale_line m0 v n0 dims p c : vwf v -> distinct_cells v -> vdims v = n0 :: dims -> 0 <= p < n0 ->
  forall M m, becomes v M m0 m ->
  exists m', foldM (fun ix m => do t <- get_at v (p :: ix) m; put_at v (p :: ix) (cmul t c) m) (all_indices dims) m = Ok m' /\ becomes v (scaled (p, c) M) m0 m'.
Proof.
  intros W Hd D Hp. apply (slicewise _ (scaled (p, c)) m0 v dims n0 D).
  - intros M M' i jx H. cbn [scaled]. rewrite !H. reflexivity.
  - intros jx M m Hj B. assert (Ip : in_range (p :: jx) (vdims v)) by (rewrite D; now constructor).
    rewrite (get_becomes m0 m v M (p :: jx)) by assumption. cbn [bind].
    destruct (put_becomes m0 m v M (p :: jx) (cmul (M (p :: jx)) c) W Hd B Ip) as (m1 & -> & B1). exists m1. split; [reflexivity|]. revert B1. apply becomes_ext.
    intros ix Hix. rewrite D in Hix. destruct ix as [|i kx]; [inversion Hix|]. cbn [tl scaled eqlb fst snd].
    destruct (eqlb kx jx) eqn:Ek; [apply eqlb_eq in Ek as ->|]; rewrite ?andb_true_r, ?andb_false_r; [|reflexivity]. destruct (i =? p) eqn:Ep; [|reflexivity]. apply Z.eqb_eq in Ep as ->. reflexivity.
Qed.
Lemma scale_ok v m ops : vwf v -> distinct_cells v -> readable m v -> (forall n0 dims p c, vdims v = n0 :: dims -> In (p, c) ops -> 0 <= p < n0) ->
  (forall n0 n1, vdims v = [n0; n1] -> exists m', rv2_scale v ops m = Ok m' /\ becomes v (fold_left (fun M op => scaled op M) ops (elem0 m v)) m m') /\
  (forall n0 n1 n2, vdims v = [n0; n1; n2] -> exists m', rv3_scale v ops m = Ok m' /\ becomes v (fold_left (fun M op => scaled op M) ops (elem0 m v)) m m').
Proof.
  intros W Hd Rv Ho. split.
  - intros n0 n1 D. unfold rv2_scale. apply (fold_becomes _ scaled m v ops); [|now apply becomes_start]. intros [p c] M m1 Hin B. rewrite (nd_eq v _ 1 D). cbn [nth fst snd]. setoid_rewrite nest1_fold.
    apply (scale_line m v n0 [n1] p c); try assumption. eapply Ho; eassumption.
  - intros n0 n1 n2 D. unfold rv3_scale. apply (fold_becomes _ scaled m v ops); [|now apply becomes_start]. intros [p c] M m1 Hin B. rewrite !(nd_eq v _ _ D). cbn [nth fst snd]. setoid_rewrite nest2_fold.
    apply (scale_line m v n0 [n1; n2] p c); try assumption. eapply Ho; eassumption.
Qed.
Lemma neg1_sq : cmul (copp c1) (copp c1) = (c1 : R).
Proof. ring. Qed.
(* a rotation with a*a+b*b = 1 keeps the sum of squares along every line *)
Lemma rsum_two (f g : Z -> R) n p q : 0 <= p < n -> 0 <= q < n -> p <> q -> (forall i, 0 <= i < n -> i <> p -> i <> q -> f i = g i) ->
  cadd (f p) (f q) = cadd (g p) (g q) -> rsum (map f (zrange n)) = rsum (map g (zrange n)).
Proof.
  intros Hp Hq Npq H E.
  assert (Q : forall h : Z -> R, rsum (map h (zrange n)) = cadd (cadd (h p) (h q)) (rsum (map (fun i => if (i =? p) || (i =? q) then c0 else h i) (zrange n)))).
  { intro h. assert (S1 : forall t (k : Z -> R), 0 <= t < n -> rsum (map (fun i => if i =? t then k i else c0) (zrange n)) = k t).
    { intros t k Ht. rewrite (rsum_ext R _ (fun i => if i =? t then k t else c0)) by (intros i _; destruct (i =? t) eqn:Ei; [f_equal; lia|reflexivity]).
      assert (Sp : forall l, NoDup l -> rsum (map (fun i => if i =? t then k t else c0) l) = if in_dec Z.eq_dec t l then k t else c0).
      { induction l as [|y l IH]; intro Nd; cbn [map]; [reflexivity|]. inversion Nd; subst. rewrite rsum_cons, IH by assumption. destruct (in_dec Z.eq_dec t (y :: l)) as [I|I], (in_dec Z.eq_dec t l) as [J|J], (y =? t) eqn:Ey; try ring.
        - exfalso. apply Z.eqb_eq in Ey as ->. contradiction.
        - exfalso. destruct I as [->|I]; [lia|contradiction].
        - exfalso. apply I. now right.
        - exfalso. apply I. now right.
        - exfalso. apply I. left. lia. }
      rewrite Sp by apply zrange_nodup. destruct (in_dec Z.eq_dec t (zrange n)) as [_|N]; [reflexivity|]. exfalso. apply N. now apply in_zrange. }
    rewrite <- (S1 p h Hp) at 1. rewrite <- (S1 q h Hq) at 1. rewrite <- !rsum_map_add. apply rsum_ext. intros i _. destruct (i =? p) eqn:Ep, (i =? q) eqn:Eq; cbn [orb]; try ring. lia. }
  rewrite (Q f), (Q g), E. f_equal. apply rsum_ext. intros i Hi. apply in_zrange in Hi. destruct (i =? p) eqn:Ep, (i =? q) eqn:Eq; cbn [orb]; try reflexivity. apply H; lia.
Qed.
Lemma rotated_sqsum s p q a b n0 M jx : 0 <= p < n0 -> 0 <= q < n0 -> p <> q -> cadd (cmul a a) (cmul b b) = c1 -> cmul s s = c1 ->
  sqsum n0 (rotated s (p, q, (a, b)) M) jx = sqsum n0 M jx.
Proof.
  intros Hp Hq Npq E Es. unfold sqsum. apply (rsum_two _ _ n0 p q Hp Hq Npq).
  - intros i Hi N1 N2. cbn [rotated]. now replace (i =? q) with false by lia; replace (i =? p) with false by lia.
  - cbn [rotated]. rewrite Z.eqb_refl. replace (p =? q) with false by lia. rewrite Z.eqb_refl. set (x := M (p :: jx)). set (y := M (q :: jx)).
    transitivity (cadd (cmul (cadd (cmul a x) (cmul b y)) (cadd (cmul a x) (cmul b y))) (cmul (cmul s s) (cmul (csub (cmul a y) (cmul b x)) (csub (cmul a y) (cmul b x))))); [ring|]. rewrite Es.
    transitivity (cmul (cadd (cmul a a) (cmul b b)) (cadd (cmul x x) (cmul y y))); [ring|]. rewrite E. ring.
Qed.
Lemma rotations_sqsum s n0 ops : cmul s s = c1 -> good_ops n0 ops -> (forall p q a b, In (p, q, (a, b)) ops -> cadd (cmul a a) (cmul b b) = c1) ->
  forall M jx, sqsum n0 (fold_left (fun M op => rotated s op M) ops M) jx = sqsum n0 M jx.
Proof.
  intros Es. induction ops as [|[[p q] [a b]] ops IH]; intros Hg Hu M jx; [reflexivity|]. cbn [fold_left]. rewrite IH.
  - destruct (Hg p q (a, b)) as (H1 & H2 & H3); [now left|]. apply rotated_sqsum; try assumption. apply (Hu p q). now left.
  - intros p' q' ab I. apply (Hg p' q' ab). now right.
  - intros p' q' a' b' I. apply (Hu p' q'). now right.
Qed.
End Img.
