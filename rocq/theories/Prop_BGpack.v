(* Prop_BGpack.v -- C141-C145: packs of tensors. *)
From Verif Require Import Base BaseFacts Model_Index Model_View Model_Tensor Model_Ops Spec_Index Spec_View Spec_Tensor Spec_Ops
  Proofs_Axes Proofs_Index Proofs_View Proofs_View2 Proofs_Tensor Proofs_Tensor2 Proofs_Tensor3 Proofs_Ops Checks Model_BG Spec_BG Model_BGprod Model_BGpack Proofs_BG Spec_BGpack Proofs_BGpack.
From Verif Require Prop_Tensor Prop_BGprod3.
Require Import Sorting.Sorted.
Local Open Scope Z_scope.

(* ---- C141: filing, finding and removing ---- *)
(* After any history of insertions and removals that ran through, on a new pack, operator[] finds under each key what the history left
   there and throws for the other keys; each part has the batch size and the grid of the pack; for_each visits every part once, in
   ascending order of the keys. *)
Theorem C141_history : forall b g h p, p_run h (p_new b g) = Ok p ->
  (forall k, p_get k p = match left_at k None h with Some x => Ok x | None => Throw end) /\
  (forall k x, has p k x -> getb x = Ok (pb p) /\ gdims x = Ok (pg p)) /\
  ascending (p_visits p) /\ (forall k x, In (k, x) (p_visits p) <-> has p k x) /\ psize p = Z.of_nat (length (p_visits p)).
Proof.
  intros b g h p H. destruct (run_spec h (p_new b g) p) as (A & S & L); [constructor|intros k x Hx; discriminate Hx|exact H|].
  split; [intro k; unfold p_get; now rewrite L|]. split; [exact S|]. split; [exact A|]. split; [|reflexivity].
  intros k x. split; [now apply in_has|apply has_in].
Qed.
Print Assumptions C141_history.
(* An insertion is accepted exactly if the pack is empty or the tensor has the pack's batch size and grid; a pack whose parts were
   inserted keeps its batch size and grid until it is empty. *)
Theorem C141_insert : forall p k x b g c, shaped x b g c ->
  (psize p = 0 \/ (pb p = b /\ pg p = g) -> exists q, p_insert k x p = Ok q /\ pb q = b /\ pg q = g) /\
  (psize p <> 0 -> pb p <> b \/ pg p <> g -> p_insert k x p = Throw).
Proof.
  intros p k x b g c H. unfold p_insert. rewrite (shaped_getb _ _ _ _ H), (shaped_gdims _ _ _ _ H). cbn [bind]. split.
  - intro Hp. destruct (Z.eqb_spec (psize p) 0).
    + cbn. rewrite Z.eqb_refl, shape_eqb_refl. cbn. eexists. split; [reflexivity|]. now split.
    + destruct Hp as [Hp|[<- <-]]; [congruence|]. rewrite Z.eqb_refl, shape_eqb_refl. cbn. eexists. split; [reflexivity|]. now split.
  - intros Hn Hp. destruct (Z.eqb_spec (psize p) 0); [congruence|]. destruct (Z.eqb_spec b (pb p)); [|reflexivity]. cbn. destruct (shape_eqb_spec g (pg p)); [|reflexivity]. destruct Hp; congruence.
Qed.
Print Assumptions C141_insert.

(* ---- C142: sums and scalar multiples ---- *)
Section Ring.
Context {R : cring}.
Notation memR := (mem (car R)).
Add Ring RrPackP : (cth R).
Lemma plain_vwf v : plain_layout v -> vwf v. Proof. intros (A & B & _). now split. Qed.
Lemma sound_vwf p k a : sound p -> has p k a -> vwf (bv a). Proof. intros [_ S] H. destruct (S k a H) as (c & _ & _ & W). exact W. Qed.
Lemma alike_size p x : ascending (parts p) -> ascending (parts x) -> alike p x -> psize x = psize p.
Proof.
  intros A B [K _]. unfold psize. f_equal. symmetry. apply same_size; [exact A|exact B|]. intro k. specialize (K k).
  split; intros (y & Hy); [destruct (proj1 K) as (z & Hz)|destruct (proj2 K) as (z & Hz)]; try (exists y; now apply has_find); exists z; now apply has_find in Hz.
Qed.
(* the common conditions of writing p from x *)
Lemma pair_ready p x (m : memR) : sound x -> alike p x -> writable m p -> legible m x -> in_step p x ->
  (forall k a b, has p k a -> has x k b -> can (bv a) (bv b) /\ readable m (bv a) /\ readable m (bv b)) /\
  (forall k a j b, has p k a -> has x j b -> k <> j -> disjoint_views (bv a) (bv b)).
Proof.
  intros Sx [_ K] [W D] L I. split.
  - intros k a b Ha Hb. destruct (W k a Ha) as (P1 & P2 & P3). destruct (K k a b Ha Hb) as [Ed _]. split; [|split; [exact P3|now apply (L k)]].
    split; [exact P1|]. split; [now apply (sound_vwf x k)|]. split; [now symmetry|]. split; [exact P2|].
    intros ix jx Hi Hj E. now apply (I k a k b ix jx).
  - intros k a j b Ha Hb Hne ix jx Hi Hj E. apply Hne. now apply (I k a j b ix jx).
Qed.

(* p.add(x), for packs with the same keys and shapes: every element of p gains the corresponding element of x, nothing else changes.
   x may be p itself, or share its parts. *)
Theorem C142_add : forall p x (m : memR), sound p -> sound x -> alike p x -> writable m p -> legible m x -> in_step p x ->
  exists m', p_add p x m = Ok m' /\ turns cadd p x m m'.
Proof.
  intros p x m [A S] Sx K W L I. unfold p_add. rewrite (alike_size p x A (proj1 Sx) K), Z.eqb_refl. cbn [assrt].
  destruct (pair_ready p x m Sx K W L I) as [H1 H2].
  apply (pack_fold tv_add cadd can can_dims add_step (fun k => p_get k x)); auto; [intros k a Ha; apply (proj1 K k); now exists a|apply W].
Qed.
(* It does not run through on packs with different keys. *)
Theorem C142_keys : forall p x (m m' : memR), sound p -> sound x -> (exists k, ~ ((exists a, has p k a) <-> (exists b, has x k b))) -> p_add p x m <> Ok m'.
Proof.
  intros p x m m' [A _] [B _] (k & Hk). unfold p_add. destruct (Z.eqb_spec (psize x) (psize p)) as [E|]; [|discriminate]. cbn [assrt].
  assert (X : exists j a, has p j a /\ forall b, ~ has x j b).
  { destruct (pfind k (parts p)) as [a|] eqn:Ep.
    - exists k, a. split; [now apply has_find|]. intros b Hb. apply Hk. split; intros _; [now exists b|exists a; now apply has_find].
    - destruct (pfind k (parts x)) as [b|] eqn:Ex; [|exfalso; apply Hk; split; intros (y & Hy); apply has_find in Hy; congruence].
      destruct (forallb (fun e => match pfind (fst e) (parts x) with Some _ => true | None => false end) (parts p)) eqn:Ea.
      + exfalso. rewrite forallb_forall in Ea. unfold psize in E.
        assert (Hl : (length (k :: map fst (parts p)) <= length (map fst (parts x)))%nat).
        { apply NoDup_incl_length.
          - constructor; [|now apply ascending_nodup]. intro Hin. apply keys_in in Hin; [|exact A]. destruct Hin as (y & Hy). congruence.
          - intros j [<-|Hj]; [apply keys_in; [exact B|now exists b]|]. apply in_map_iff in Hj. destruct Hj as (e & <- & He). specialize (Ea e He).
            apply keys_in; [exact B|]. destruct (pfind (fst e) (parts x)) as [y|]; [now exists y|discriminate]. }
        cbn [length] in Hl. rewrite !map_length in Hl. lia.
      + assert (Hex : existsb (fun e => negb (match pfind (fst e) (parts x) with Some _ => true | None => false end)) (parts p) = true).
        { clear -Ea. induction (parts p) as [|e l IH]; [discriminate|]. cbn in *. destruct (pfind (fst e) (parts x)); cbn in *; auto. }
        apply existsb_exists in Hex. destruct Hex as ([j a] & Hin & Hj). cbn in Hj. exists j, a. split; [now apply in_has|]. intros y Hy. apply has_find in Hy. rewrite Hy in Hj. discriminate. }
  destruct X as (j & a & Ha & Hx). apply (foldM_stuck _ (j, a)); [now apply has_in|]. intros s s'. cbn. unfold p_get.
  destruct (pfind j (parts x)) as [y|] eqn:Ey; [|discriminate]. exfalso. apply (Hx y). now apply has_find.
Qed.
(* x+y: a new pack that holds the sums; x, y and everything else stay *)
Lemma beside nb p r y (m m1 : memR) : sound y -> legible m y -> free_from nb m -> builds nb p r m m1 ->
  (forall k b ix, has y k b -> in_range ix (vdims (bv b)) -> elem m1 (bv b) ix = elem m (bv b) ix) /\ in_step r y.
Proof.
  intros Sy L Hf (_ & _ & Hb & O).
  assert (B : forall k b ix, has y k b -> in_range ix (vdims (bv b)) -> exists a, vaddr (bv b) ix = Ok (vblk (bv b), a) /\ vblk (bv b) < nb).
  { intros k b ix Hk Hix. assert (Rb := L k b Hk ix Hix). unfold elem in Rb. destruct (vaddr (bv b) ix) as [[bl a]| |] eqn:E; try congruence.
    assert (bl = vblk (bv b)) as -> by (apply vaddr_blk in E; exact E). exists a. split; [reflexivity|]. destruct (Z.lt_ge_cases (vblk (bv b)) nb) as [|Hge]; [assumption|]. exfalso. apply Rb. now apply Hf. }
  split.
  - intros k b ix Hk Hix. destruct (B k b ix Hk Hix) as (a & E & Hlt). unfold elem. rewrite E. now apply O.
  - intros k a j b ix jx Ha Hj Hix Hjx E. exfalso. destruct (B j b jx Hj Hjx) as (c & E' & Hlt). rewrite E' in E. apply vaddr_blk in E. cbn in E. specialize (Hb k a Ha). lia.
Qed.
Theorem C142_plus : forall nb p y (m : memR), sound p -> sound y -> alike p y -> legible m p -> legible m y -> small p -> free_from nb m ->
  exists r m', p_plus nb p y m = Ok (r, m') /\ builds nb p r m m' /\ pb r = pb p /\ pg r = pg p /\
    (forall k a b c ix, has p k a -> has y k b -> has r k c -> in_range ix (vdims (bv a)) -> elem m' (bv c) ix = Some (cadd (elem0 m (bv a) ix) (elem0 m (bv b) ix))).
Proof.
  intros nb p y m Sp Sy K Lp Ly Hs Hf. destruct (new_pack bg_copy (fun v => v) copy_spec p (pb p) (pg p) nb m Sp Lp Hs Hf) as (m1 & E & B & Hel).
  unfold p_plus, p_copy. rewrite E. cbn [bind]. set (r := Pack (pb p) (pg p) (renew nb (parts p))) in *.
  destruct (beside nb p r y m m1 Sy Ly Hf B) as (Ky & I). destruct B as (K1 & W1 & Hb & O).
  assert (K2 : alike r y).
  { destruct K as [Ka Kb], K1 as [Kc Kd]. split; [intro k; rewrite <- Kc; apply Ka|]. intros k a b Ha Hb'. destruct (proj2 (Kc k)) as (c & Hc); [now exists a|].
    destruct (Kb k c b Hc Hb') as [e1 e2], (Kd k c a Hc Ha) as [e3 e4]. split; congruence. }
  destruct (C142_add r y m1) as (m' & Em & T1 & T2); auto; [now apply renew_sound|intros k b Hk ix Hix; rewrite (Ky k b ix Hk Hix); now apply (Ly k b)|].
  rewrite Em. cbn [bind]. exists r, m'. split; [reflexivity|].
  assert (Rr : forall k c ix, has r k c -> in_range ix (vdims (bv c)) -> exists a, has p k a /\ vdims (bv c) = vdims (bv a)).
  { intros k c ix Hc Hix. destruct (proj2 (proj1 K1 k)) as (a & Ha); [now exists c|]. exists a. split; [exact Ha|]. symmetry. now apply (proj2 K1 k). }
  split; [|split; [reflexivity|split; [reflexivity|]]].
  - split; [exact K1|]. split; [|split; [exact Hb|]].
    + destruct W1 as [W1 D1]. split; [|exact D1]. intros k c Hc. destruct (W1 k c Hc) as (P1 & P2 & P3). split; [exact P1|]. split; [exact P2|].
      intros ix Hix. destruct (proj1 (proj1 K2 k)) as (b & Hb'); [now exists c|]. rewrite (T1 k c b ix Hc Hb' Hix). discriminate.
    + intros b c Hlt. rewrite T2; [now apply O|]. intros k a ix Ha Hix Eq. apply vaddr_blk in Eq. cbn in Eq. specialize (Hb k a Ha). lia.
  - intros k a b c ix Ha Hbk Hc Hix. destruct (proj2 K1 k a c Ha Hc) as [Ed _]. rewrite (T1 k c b ix Hc Hbk) by (now rewrite <- Ed).
    unfold elem0 at 1. rewrite (Hel k a c ix Ha Hc Hix). unfold elem0 at 2. rewrite (Ky k b ix Hbk); [reflexivity|]. destruct K as [_ K]. destruct (K k a b Ha Hbk) as [Ed' _]. now rewrite <- Ed'.
Qed.
(* x*c: a new pack that holds the multiples *)
Theorem C142_times : forall nb p c (m : memR), sound p -> legible m p -> small p -> free_from nb m ->
  exists r m', p_times nb p c m = Ok (r, m') /\ builds nb p r m m' /\ (psize p <> 0 -> pb r = pb p /\ pg r = pg p) /\
    (forall k a d ix, has p k a -> has r k d -> in_range ix (vdims (bv a)) -> elem m' (bv d) ix = Some (cmul c (elem0 m (bv a) ix))).
Proof.
  intros nb p c m Sp Lp Hs Hf. destruct (parts p) as [|[k0 x0] l] eqn:Ep.
  - destruct (new_pack (bg_scale c) (fun v => cmul c v) (scale_spec c) p 1 [] nb m Sp Lp Hs Hf) as (m1 & E & B & Hel). unfold p_times. rewrite E, Ep. cbn [renew bind p_reset].
    exists (Pack 1 [] []), m1. rewrite Ep in B, Hel. cbn [renew] in *. split; [reflexivity|]. split; [exact B|]. split; [|exact Hel]. unfold psize. rewrite Ep. cbn. lia.
  - destruct (new_pack (bg_scale c) (fun v => cmul c v) (scale_spec c) p (pb p) (pg p) nb m Sp Lp Hs Hf) as (m1 & E & B & Hel). unfold p_times. rewrite E. cbn [bind].
    assert (Er : p_reset (renew nb (parts p)) = Ok (Pack (pb p) (pg p) (renew nb (parts p)))).
    { rewrite Ep. cbn [renew p_reset]. destruct (proj2 (renew_sound p nb Sp) k0 (BG (fresh_view nb (vdims (bv x0))) (ng x0))) as (cd & Hsh).
      - apply has_find. cbn [parts]. rewrite Ep. cbn. now rewrite Z.eqb_refl.
      - cbn [pb pg] in Hsh. rewrite (shaped_getb _ _ _ _ Hsh), (shaped_gdims _ _ _ _ Hsh). reflexivity. }
    rewrite Er. cbn [bind]. eexists _, m1. split; [reflexivity|]. split; [exact B|]. split; [now split|exact Hel].
Qed.
(* The multiple of a pack without parts has batch size one and no grid, whatever the batch size and the grid of the pack. *)
Theorem C142_times_empty : forall nb b g c (m : memR), p_times nb (p_new b g) c m = Ok (p_new 1 [], m).
Proof. reflexivity. Qed.

(* ---- C143: differences ---- *)
(* p.subtract(x) should take the elements of x from those of p.  It works on x instead: x becomes zero and p stays as it is. *)
Theorem C143_subtract_clears : forall p x (m : memR), sound p -> sound x -> alike p x -> writable m x ->
  exists m', p_subtract p x m = Ok m' /\ turns (fun _ _ => c0) x x m m'.
Proof.
  intros p x m [A S] Sx K W. unfold p_subtract. rewrite (alike_size p x A (proj1 Sx) K), Z.eqb_refl. cbn [assrt].
  assert (Ix : in_step x x).
  { intros k a j b ix jx Ha Hb Hi Hj E. destruct (Z.eq_dec k j) as [->|Hne].
    - assert (a = b) as <- by apply (has_fun _ _ _ _ Ha Hb). split; [reflexivity|]. destruct (proj1 W j a Ha) as (_ & D & _). now apply D.
    - exfalso. now apply (proj2 W k a j b Ha Hb Hne ix jx). }
  assert (Kx : alike x x) by (split; [tauto|]; intros k a b Ha Hb; now rewrite (has_fun _ _ _ _ Ha Hb)).
  assert (Lx : legible m x) by (intros k a Ha; apply (proj1 W k a Ha)).
  destruct (pair_ready x x m Sx Kx W Lx Ix) as [H1 H2].
  destruct (pack_fold tv_sub csub can can_dims sub_step (fun k => p_get k x) x x m) as (m' & E & T1 & T2); auto; try apply Sx; try apply W; try (intros k a Ha; now exists a).
  exists m'. split; [exact E|]. split; [|exact T2]. intros k a b ix Ha Hb Hix. rewrite (T1 k a b ix Ha Hb Hix), (has_fun _ _ _ _ Ha Hb). f_equal. ring.
Qed.
(* So it is right when p and x have the same parts, as after p.subtract(p). *)
Theorem C143_subtract_self_partial : forall p x (m : memR), sound p -> parts x = parts p -> pb x = pb p -> pg x = pg p -> writable m p ->
  exists m', p_subtract p x m = Ok m' /\ turns csub p x m m'.
Proof.
  intros p x m Sp E Eb Eg W. assert (Hh : forall k a, has x k a <-> has p k a) by (intros; rewrite !has_find, E; tauto).
  assert (x = p) as -> by (destruct p, x; cbn in *; congruence).
  destruct (C143_subtract_clears p p m Sp Sp) as (m' & Em & T1 & T2); auto.
  { split; [tauto|]; intros k a b Ha Hb; now rewrite (has_fun _ _ _ _ Ha Hb). }
  exists m'. split; [exact Em|]. split; [|exact T2]. intros k a b ix Ha Hb Hix. rewrite (T1 k a b ix Ha Hb Hix), (has_fun _ _ _ _ Ha Hb). f_equal. ring.
Qed.
(* x-y: the new pack is a copy of x, and y becomes zero. *)
Theorem C143_minus_clears : forall nb p y (m : memR), sound p -> sound y -> alike p y -> legible m p -> writable m y -> small p -> free_from nb m ->
  exists r m', p_minus nb p y m = Ok (r, m') /\ alike p r /\
    (forall k a c ix, has p k a -> has r k c -> in_range ix (vdims (bv a)) -> elem m' (bv c) ix = Some (elem0 m (bv a) ix)) /\
    (forall k b ix, has y k b -> in_range ix (vdims (bv b)) -> elem m' (bv b) ix = Some c0).
Proof.
  intros nb p y m Sp Sy K Lp Wy Hs Hf. destruct (new_pack bg_copy (fun v => v) copy_spec p (pb p) (pg p) nb m Sp Lp Hs Hf) as (m1 & E & B & Hel).
  unfold p_minus, p_copy. rewrite E. cbn [bind]. set (r := Pack (pb p) (pg p) (renew nb (parts p))) in *.
  assert (Ly : legible m y) by (intros k a Ha; apply (proj1 Wy k a Ha)).
  destruct (beside nb p r y m m1 Sy Ly Hf B) as (Ky & I). destruct B as (K1 & W1 & Hb & O).
  assert (K2 : alike r y).
  { destruct K as [Ka Kb], K1 as [Kc Kd]. split; [intro k; rewrite <- Kc; apply Ka|]. intros k a b Ha Hb'. destruct (proj2 (Kc k)) as (c & Hc); [now exists a|].
    destruct (Kb k c b Hc Hb') as [e1 e2], (Kd k c a Hc Ha) as [e3 e4]. split; congruence. }
  destruct (C143_subtract_clears r y m1) as (m' & Em & T1 & T2); auto; [now apply renew_sound| |].
  { destruct Wy as [W D]. split; [|exact D]. intros k b Hk. destruct (W k b Hk) as (P1 & P2 & P3). split; [exact P1|]. split; [exact P2|]. intros ix Hix. rewrite (Ky k b ix Hk Hix). now apply P3. }
  rewrite Em. cbn [bind]. exists r, m'. split; [reflexivity|]. split; [exact K1|]. split; [|intros k b ix Hk Hix; now apply (T1 k b b ix)].
  intros k a c ix Ha Hc Hix. rewrite <- (Hel k a c ix Ha Hc Hix). destruct (proj2 K1 k a c Ha Hc) as [Ed _]. unfold elem. destruct (vaddr (bv c) ix) as [[bl o]| |] eqn:Ea; try reflexivity.
  apply T2. intros j b jx Hj Hjx Eq. destruct (I k c j b ix jx Hc Hj) as [Ekj Eij]; [now rewrite <- Ed|exact Hjx|congruence|].
  apply vaddr_blk in Eq. apply vaddr_blk in Ea. cbn in *. specialize (Hb k c Hc).
  assert (Rb := Ly j b Hj jx Hjx). unfold elem in Rb. destruct (vaddr (bv b) jx) as [[bl' o']| |] eqn:Eb; try congruence. apply vaddr_blk in Eb. cbn in Eb. apply Rb. apply Hf. lia.
Qed.

(* ---- C144: copies and assignment ---- *)
(* A copy-constructed pack has the very parts of the original: what is written through one is seen through the other. *)
Theorem C144_shared : forall p, pb (p_share p) = pb p /\ pg (p_share p) = pg p /\ forall k, p_get k (p_share p) = p_get k p.
Proof. repeat split. Qed.
(* copy(): a new pack with the same contents in memory of its own *)
Theorem C144_copy : forall nb p (m : memR), sound p -> legible m p -> small p -> free_from nb m ->
  exists r m', p_copy nb p m = Ok (r, m') /\ sound r /\ builds nb p r m m' /\ apart r p /\ pb r = pb p /\ pg r = pg p /\
    (forall k a c ix, has p k a -> has r k c -> in_range ix (vdims (bv a)) -> elem m' (bv c) ix = elem m (bv a) ix).
Proof.
  intros nb p m Sp Lp Hs Hf. destruct (new_pack bg_copy (fun v => v) copy_spec p (pb p) (pg p) nb m Sp Lp Hs Hf) as (m1 & E & B & Hel).
  unfold p_copy. rewrite E. cbn [bind]. eexists _, m1. split; [reflexivity|]. split; [now apply renew_sound|]. split; [exact B|]. split; [|split; [reflexivity|split; [reflexivity|]]].
  - destruct B as (_ & _ & Hb & _). intros k a j b Ha Hj ix jx Hix Hjx Eq. assert (Rb := Lp j b Hj jx Hjx). unfold elem in Rb. destruct (vaddr (bv b) jx) as [[bl o]| |] eqn:Eb; try congruence.
    apply vaddr_blk in Eq. apply Rb. apply Hf. cbn in Eq. rewrite Eq. now apply (Hb k a).
  - intros k a c ix Ha Hc Hix. rewrite (Hel k a c ix Ha Hc Hix). symmetry. apply readable_elem; [now apply (Lp k)|exact Hix].
Qed.
(* p=x, for packs with the same batch size, grid, keys and shapes: p takes the elements of x.  p keeps its parts, so every pack that
   shares them changes with it. *)
Theorem C144_assign : forall p x (m : memR), sound p -> sound x -> pb p = pb x -> pg p = pg x -> alike p x -> writable m p -> legible m x -> in_step p x ->
  exists m', p_assign p x m = Ok m' /\ turns (fun _ v => v) p x m m'.
Proof.
  intros p x m [A S] Sx Eb Eg K W L I. unfold p_assign. rewrite Eb, Z.eqb_refl, Eg, shape_eqb_refl. cbn [assrt].
  destruct (pair_ready p x m Sx K W L I) as [H1 H2].
  destruct (pack_fold tv_assign (fun _ v => v) can can_dims assign_step (fun k => p_get k x) p x m) as (m' & E & T); auto; [intros k a Ha; apply (proj1 K k); now exists a|apply W|].
  exists m'. split; [|exact T]. rewrite <- E. apply foldM_ext. intros [k a] s He. cbn [fst snd]. assert (Ha : has p k a) by now apply in_has.
  destruct (proj1 (proj1 K k)) as (b & Hb); [now exists a|]. pose proof Hb as Hb'. apply has_find in Hb. rewrite Hb. unfold has in Hb'. rewrite Hb'. cbn [bind].
  unfold bg_assign. destruct (proj2 K k a b Ha Hb') as [_ En]. rewrite En, Z.eqb_refl. reflexivity.
Qed.
(* A key of p that x does not have makes it read through a null pointer: it does not run through.  (A key of x that p does not have is
   passed over.) *)
Theorem C144_assign_missing : forall p x (m m' : memR) k a, has p k a -> (forall b, ~ has x k b) -> p_assign p x m <> Ok m'.
Proof.
  intros p x m m' k a Ha Hx. unfold p_assign. destruct (pb p =? pb x); [|discriminate]. destruct (shape_eqb (pg p) (pg x)); [|discriminate]. cbn [assrt].
  apply (foldM_stuck _ (k, a)); [now apply has_in|]. intros s s'. cbn. destruct (pfind k (parts x)) as [b|] eqn:E; [|discriminate]. exfalso. apply (Hx b). now apply has_find.
Qed.
Theorem C144_assign_first_missing : forall p x (m : memR) k a l, parts p = (k, a) :: l -> pb p = pb x -> pg p = pg x -> (forall b, ~ has x k b) -> p_assign p x m = UB.
Proof.
  intros p x m k a l E Eb Eg Hx. unfold p_assign. rewrite Eb, Z.eqb_refl, Eg, shape_eqb_refl, E. cbn. destruct (pfind k (parts x)) as [b|] eqn:Ex; [|reflexivity]. exfalso. apply (Hx b). now apply has_find.
Qed.
(* Packs of different batch size or grid, and parts with grids of different rank, are refused. *)
Theorem C144_assign_refused : forall p x (m m' : memR), (pb p <> pb x \/ pg p <> pg x -> p_assign p x m = Throw) /\
  ((exists k a b, has p k a /\ has x k b /\ ng a <> ng b) -> p_assign p x m <> Ok m').
Proof.
  intros p x m m'. unfold p_assign. split.
  - intro H. destruct (Z.eqb_spec (pb p) (pb x)); [|reflexivity]. cbn [assrt]. destruct (shape_eqb_spec (pg p) (pg x)); [|reflexivity]. destruct H; congruence.
  - intros (k & a & b & Ha & Hb & Hn). destruct (pb p =? pb x); [|discriminate]. destruct (shape_eqb (pg p) (pg x)); [|discriminate]. cbn [assrt].
    apply (foldM_stuck _ (k, a)); [now apply has_in|]. intros s s'. cbn [fst snd]. apply has_find in Hb. rewrite Hb. unfold bg_assign. destruct (Z.eqb_spec (ng a) (ng b)); [congruence|discriminate].
Qed.
Theorem C144_assign_extra : forall p x y (m : memR), pb x = pb y -> pg x = pg y -> (forall k a, has p k a -> p_get k x = p_get k y) -> ascending (parts p) -> p_assign p x m = p_assign p y m.
Proof.
  intros p x y m Eb Eg H A. unfold p_assign. rewrite Eb, Eg. destruct (pb p =? pb y); [|reflexivity]. destruct (shape_eqb (pg p) (pg y)); [|reflexivity]. cbn [assrt].
  apply foldM_ext. intros [k a] s He. cbn [fst snd]. specialize (H k a (in_has _ _ _ A He)). unfold p_get in H. destruct (pfind k (parts x)), (pfind k (parts y)); try congruence; reflexivity.
Qed.
End Ring.
Print Assumptions C142_add. Print Assumptions C142_keys. Print Assumptions C142_plus. Print Assumptions C142_times.
Print Assumptions C143_subtract_clears. Print Assumptions C143_subtract_self_partial. Print Assumptions C143_minus_clears.
Print Assumptions C144_shared. Print Assumptions C144_copy. Print Assumptions C144_assign. Print Assumptions C144_assign_missing. Print Assumptions C144_assign_first_missing. Print Assumptions C144_assign_extra. Print Assumptions C144_assign_refused. Print Assumptions C142_times_empty.

(* ---- C145: cells ---- *)
(* cell(ix): a pack without grid, with the same keys and batch size, whose part under each key shows the cell ix of every batch of the
   part of p, in the memory of p *)
Theorem C145_cell : forall p ix, sound p -> in_range ix (pg p) ->
  exists r, p_cell ix p = Ok r /\ sound r /\ pb r = pb p /\ pg r = [] /\ (forall k, (exists a, has p k a) <-> (exists c, has r k c)) /\
    (forall k a c cd, has p k a -> has r k c -> shaped a (pb p) (pg p) cd -> shaped c (pb p) [] cd /\ shows (bv c) (bv a) (fun j => hd 0 j :: ix ++ tl j)).
Proof.
  intros p ix [A S] Hix. unfold p_cell. rewrite (in_range_length ix (pg p) Hix), Nat.eqb_refl. cbn [assrt].
  assert (G : forall l, (forall k x, In (k, x) l -> exists c, shaped x (pb p) (pg p) c) -> exists r, on_parts (fun x => bg_cell x ix) l = Ok r /\ map fst r = map fst l /\
     (forall k, (pfind k l = None -> pfind k r = None) /\ (forall x, pfind k l = Some x -> exists y, pfind k r = Some y /\ bg_cell x ix = Ok y))).
  { induction l as [|[k x] l IH]; intros H.
    - exists []. cbn. repeat split; auto; discriminate.
    - destruct (H k x (or_introl eq_refl)) as (c & Hc). destruct (Prop_BGprod3.C117_cell x _ _ c ix Hc Hix) as (y & Ey & _). destruct IH as (r & Er & Em & Ef); [intros j z Hz; apply (H j z); now right|].
      cbn [on_parts]. rewrite Ey. cbn [bind]. rewrite Er. cbn [bind]. eexists. split; [reflexivity|]. split; [cbn; now rewrite Em|]. intro j. cbn. destruct (k =? j); [|apply Ef].
      split; [discriminate|]. intros z [= <-]. now exists y. }
  destruct (G (parts p)) as (l & E & Ek & Ef); [intros k x Hk; apply (S k x); now apply in_has|]. rewrite E. cbn [bind].
  assert (Hc : forall k c, pfind k l = Some c -> exists a, has p k a /\ bg_cell a ix = Ok c).
  { intros k c Hk. destruct (Ef k) as [F1 F2]. destruct (pfind k (parts p)) as [a|] eqn:Ea; [|rewrite F1 in Hk by reflexivity; discriminate]. destruct (F2 a eq_refl) as (y & Ey & Ec). exists a. split; [now apply has_find|]. congruence. }
  eexists. split; [reflexivity|]. split; [|split; [reflexivity|split; [reflexivity|split]]].
  - split; [unfold ascending in *; cbn [parts]; now rewrite Ek|]. intros k c Hk. apply has_find in Hk. cbn [parts pb pg] in *. destruct (Hc k c Hk) as (a & Ha & Ec). destruct (S k a Ha) as (cd & Hsh).
    destruct (Prop_BGprod3.C117_cell a _ _ cd ix Hsh Hix) as (y & Ey & Hy & _). exists cd. congruence.
  - intro k. split.
    + intros (a & Ha). apply has_find in Ha. destruct (Ef k) as [_ F2]. destruct (F2 a Ha) as (y & Ey & _). exists y. now apply has_find.
    + intros (c & Hk). apply has_find in Hk. cbn [parts] in Hk. destruct (Hc k c Hk) as (a & Ha & _). now exists a.
  - intros k a c cd Ha Hk Hsh. apply has_find in Hk. cbn [parts] in Hk. destruct (Hc k c Hk) as (a' & Ha' & Ec). assert (a' = a) as -> by apply (has_fun _ _ _ _ Ha' Ha).
    destruct (Prop_BGprod3.C117_cell a _ _ cd ix Hsh Hix) as (y & Ey & Hy & Hsw). assert (y = c) as -> by congruence. now split.
Qed.
Print Assumptions C145_cell.
Theorem C145_rank : forall p ix, length ix <> length (pg p) -> p_cell ix p = Throw.
Proof. intros p ix H. unfold p_cell. apply Nat.eqb_neq in H. now rewrite H. Qed.
Print Assumptions C145_rank.

(* ---- examples: p and x have the keys 1 and 5, grids of two cells, and 3 and 2 entries per cell ---- *)
Definition ex_part (b o c : Z) : bg := BG (View b o [1; 2; c] [2 * c; c; 1]) 1.
Definition ex_pack (b : Z) : pack := Pack 1 [2] [(1, ex_part b 0 3); (5, ex_part b 10 2)].
Lemma ex_has b k a : has (ex_pack b) k a <-> (k = 1 /\ a = ex_part b 0 3) \/ (k = 5 /\ a = ex_part b 10 2).
Proof.
  rewrite has_find. unfold ex_pack. cbn [parts pfind]. destruct (Z.eqb_spec 1 k) as [<-|]; [split; [intros [= <-]; auto|intros [[_ ->]|[H _]]; [reflexivity|lia]]|].
  destruct (Z.eqb_spec 5 k) as [<-|]; [split; [intros [= <-]; auto|intros [[H _]|[_ ->]]; [lia|reflexivity]]|]. split; [discriminate|]. intros [[H _]|[H _]]; lia.
Qed.
Ltac keys := repeat match goal with H : has (ex_pack _) _ _ |- _ => apply ex_has in H; destruct H as [[? ->]|[? ->]] end; subst; try lia.
Lemma ex_sound b : sound (ex_pack b).
Proof.
  split; [repeat constructor; lia|]. intros k x H. keys; [exists [3]|exists [2]]; (split; [reflexivity|split; [reflexivity|]]); (split; [reflexivity|repeat constructor; lia]).
Qed.
Lemma ex_alike b c : alike (ex_pack b) (ex_pack c).
Proof.
  split; [|intros k x y Hx Hy; keys; now split]. intro k. split; intros (y & Hy); apply ex_has in Hy; destruct Hy as [[-> _]|[-> _]]; eexists; apply ex_has; [left|right|left|right]; split; reflexivity.
Qed.
Lemma ex_writable b : 0 <= b <= 2 -> writable Prop_Tensor.ex_mem (ex_pack b).
Proof.
  intro Hb. assert (b = 0 \/ b = 1 \/ b = 2) as [ -> | [ -> | -> ] ] by lia; (split; [intros k a H; keys; (split; [|split; by_check]); (split; [reflexivity|split; [repeat constructor; lia|split; [repeat constructor; cbn; lia|right; constructor; cbn; lia]]])|]);
  intros k a j c Ha Hc Hne; keys; by_check.
Qed.
Lemma ex_apart b c : b <> c -> in_step (ex_pack b) (ex_pack c).
Proof.
  intros Hne k x j y ix jx Hx Hy Hi Hj E. exfalso. apply Hne. assert (Wx := sound_vwf _ _ _ (ex_sound b) Hx). rewrite (vaddr_cell _ _ (proj1 Wx) Hi) in E.
  symmetry in E. apply vaddr_blk in E. keys; cbn in E; congruence.
Qed.
Lemma ex_legible b : 0 <= b <= 2 -> legible Prop_Tensor.ex_mem (ex_pack b).
Proof. intros Hb k a H. apply (proj1 (ex_writable b Hb) k a H). Qed.
Lemma ex_small b : small (ex_pack b). Proof. intros k a H. keys; repeat constructor; cbn; unfold INT_MAX; lia. Qed.
Lemma ex_free : free_from 3 Prop_Tensor.ex_mem.
Proof. intros b a H. unfold Prop_Tensor.ex_mem. destruct (Z.ltb_spec b 3); [lia|]. now rewrite andb_false_r. Qed.

Example C141_case :
  let h := [Insert 5 (ex_part 0 10 2); Insert 1 (ex_part 0 0 3); Insert 5 (ex_part 1 0 2); Insert 7 (ex_part 2 0 2); Remove 7; Remove 8] in
  p_run h (p_new 4 []) = Ok (ex_pack 0) /\ left_at 5 None h = Some (ex_part 0 10 2) /\ left_at 7 None h = None /\
  shaped (ex_part 0 0 3) 1 [2] [3] /\ p_insert 9 (BG (View 0 0 [2; 3] [3; 1]) 0) (ex_pack 0) = Throw.
Proof. repeat split; repeat constructor; lia. Qed.
Example C142_case : (sound (ex_pack 0) /\ sound (ex_pack 1) /\ alike (ex_pack 0) (ex_pack 1) /\ writable Prop_Tensor.ex_mem (ex_pack 0) /\ legible Prop_Tensor.ex_mem (ex_pack 1) /\ in_step (ex_pack 0) (ex_pack 1) /\
  legible Prop_Tensor.ex_mem (ex_pack 0) /\ small (ex_pack 0) /\ free_from 3 Prop_Tensor.ex_mem) /\
  match p_add (R := ZRing) (ex_pack 0) (ex_pack 1) Prop_Tensor.ex_mem with Ok m => (m 0 5, m 0 13, m 0 6, m 1 5) = (Some 110, Some 126, Some 6, Some 105) | _ => False end /\
  match p_plus (R := ZRing) 3 (ex_pack 0) (ex_pack 1) Prop_Tensor.ex_mem with Ok (r, m) => (m 0 5, m 3 5, m 4 3) = (Some 5, Some 110, Some 126) | _ => False end /\
  match p_times (R := ZRing) 3 (ex_pack 0) 7 Prop_Tensor.ex_mem with Ok (r, m) => (m 0 5, m 3 5, m 4 3) = (Some 5, Some 35, Some 91) | _ => False end /\
  p_add (R := ZRing) (ex_pack 0) (Pack 1 [2] [(1, ex_part 1 0 3); (6, ex_part 1 10 2)]) Prop_Tensor.ex_mem = Throw.
Proof.
  split; [repeat first [apply ex_sound | apply ex_alike | apply ex_writable; lia | apply ex_legible; lia | apply ex_apart; lia | apply ex_small | apply ex_free | split]|].
  vm_compute. repeat split; reflexivity.
Qed.
(* The full claim for differences fails on these packs. *)
Theorem C143_subtract_refuted : ~ (forall (p x : pack) (m m' : mem (car ZRing)), sound p -> sound x -> alike p x -> writable m p -> writable m x -> in_step p x ->
  p_subtract p x m = Ok m' -> turns csub p x m m').
Proof.
  intro H. destruct (C143_subtract_clears (R := ZRing) (ex_pack 0) (ex_pack 1) Prop_Tensor.ex_mem (ex_sound 0) (ex_sound 1) (ex_alike 0 1)) as (m' & E & _ & U); [apply ex_writable; lia|].
  destruct (H (ex_pack 0) (ex_pack 1) Prop_Tensor.ex_mem m') as [T _]; auto using ex_sound, ex_alike; try (apply ex_writable; lia); [apply ex_apart; lia|].
  specialize (T 1 (ex_part 0 0 3) (ex_part 1 0 3) [0; 0; 0]). rewrite !ex_has in T.
  assert (Hr : in_range [0; 0; 0] [1; 2; 3]) by (repeat constructor; lia). specialize (T (or_introl (conj eq_refl eq_refl)) (or_introl (conj eq_refl eq_refl)) Hr).
  assert (Em : elem m' (bv (ex_part 0 0 3)) [0; 0; 0] = m' 0 0) by reflexivity. rewrite Em, U in T; [vm_compute in T; discriminate T|].
  intros k a ix Ha Hi Eq. apply vaddr_blk in Eq. keys; cbn in Eq; discriminate.
Qed.
Print Assumptions C143_subtract_refuted.
Example C143_case : (sound (ex_pack 0) /\ sound (ex_pack 1) /\ alike (ex_pack 0) (ex_pack 1) /\ legible Prop_Tensor.ex_mem (ex_pack 0) /\ writable Prop_Tensor.ex_mem (ex_pack 1) /\ small (ex_pack 0) /\ free_from 3 Prop_Tensor.ex_mem) /\
  match p_minus (R := ZRing) 3 (ex_pack 0) (ex_pack 1) Prop_Tensor.ex_mem with Ok (r, m) => (m 0 5, m 3 5, m 1 5, m 1 6) = (Some 5, Some 5, Some 0, Some 106) | _ => False end /\
  match p_subtract (R := ZRing) (ex_pack 0) (p_share (ex_pack 0)) Prop_Tensor.ex_mem with Ok m => (m 0 5, m 0 6) = (Some 0, Some 6) | _ => False end.
Proof.
  split; [repeat first [apply ex_sound | apply ex_alike | apply ex_writable; lia | apply ex_legible; lia | apply ex_small | apply ex_free | split]|].
  vm_compute. repeat split; reflexivity.
Qed.
Example C144_case : (sound (ex_pack 0) /\ sound (ex_pack 1) /\ alike (ex_pack 0) (ex_pack 1) /\ writable Prop_Tensor.ex_mem (ex_pack 0) /\ legible Prop_Tensor.ex_mem (ex_pack 1) /\ in_step (ex_pack 0) (ex_pack 1) /\
  legible Prop_Tensor.ex_mem (ex_pack 0) /\ small (ex_pack 0) /\ free_from 3 Prop_Tensor.ex_mem) /\
  match p_assign (R := ZRing) (ex_pack 0) (ex_pack 1) Prop_Tensor.ex_mem with Ok m => (m 0 5, m 0 13, m 0 6, m 1 5) = (Some 105, Some 113, Some 6, Some 105) | _ => False end /\
  match p_copy (R := ZRing) 3 (ex_pack 0) Prop_Tensor.ex_mem with Ok (r, m) => (m 0 5, m 3 5, m 4 3) = (Some 5, Some 5, Some 13) | _ => False end /\
  p_assign (R := ZRing) (ex_pack 0) (p_remove 1 (ex_pack 1)) Prop_Tensor.ex_mem = UB /\
  match p_assign (R := ZRing) (p_remove 5 (ex_pack 0)) (ex_pack 1) Prop_Tensor.ex_mem with Ok m => (m 0 5, m 0 13) = (Some 105, Some 13) | _ => False end.
Proof.
  split; [repeat first [apply ex_sound | apply ex_alike | apply ex_writable; lia | apply ex_legible; lia | apply ex_apart; lia | apply ex_small | apply ex_free | split]|].
  vm_compute. repeat split; reflexivity.
Qed.
Example C145_case : sound (ex_pack 0) /\ in_range [1] (pg (ex_pack 0)) /\ shaped (ex_part 0 0 3) 1 [2] [3] /\
  p_cell [1] (ex_pack 0) = Ok (Pack 1 [] [(1, BG (View 0 3 [1; 3] [6; 1]) 0); (5, BG (View 0 12 [1; 2] [4; 1]) 0)]) /\ p_cell [] (ex_pack 0) = Throw.
Proof. split; [apply ex_sound|]. repeat split; repeat constructor; lia. Qed.
