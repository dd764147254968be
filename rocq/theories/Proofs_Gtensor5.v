(* Proofs_Gtensor5.v -- programs over stand-alone tensors: who owns which array. *)
From Verif Require Import Base BaseFacts Model_Index Model_View Model_Tensor Model_Gtensor
  Spec_Index Spec_View Spec_Tensor Spec_Gtensor Proofs_Index Proofs_View2 Proofs_Sparse Proofs_Gtensor Proofs_Gtensor2 Proofs_Gtensor3 Proofs_Gtensor4.
Local Open Scope Z_scope.

Lemma in_fst {A} (i : Z) (t : A) o : In (i, t) o -> In i (map fst o).
Proof. intro H. change i with (fst (i, t)). now apply in_map. Qed.
Lemma olook_in o i t : NoDup (map fst o) -> In (i, t) o -> olook o i = Ok t.
Proof.
  induction o as [|(j, u) o IH]; intros Hn Hi; [easy|]. cbn [map fst] in Hn. inversion Hn as [|? ? N1 N2]; subst. cbn [olook]. destruct (Z.eqb_spec j i) as [->|Nj].
  - destruct Hi as [Hi|Hi]; [congruence|]. apply in_fst in Hi. contradiction.
  - destruct Hi as [Hi|Hi]; [congruence|]. now apply IH.
Qed.
Lemma in_names (o : list (Z * gtensor)) i : In i (map fst o) -> exists t : gtensor, In (i, t) o.
Proof. intro H. apply in_map_iff in H. destruct H as ((j, t) & <- & H). now exists t. Qed.
Lemma oput_names i t o : map fst (oput i t o) = map fst o.
Proof. induction o as [|(j, u) o IH]; [reflexivity|]. cbn [oput]. destruct (j =? i); cbn [map fst]; [reflexivity|]. now rewrite IH. Qed.
Lemma oput_twice i t u o : oput i t (oput i u o) = oput i t o.
Proof. induction o as [|(j, w) o IH]; [reflexivity|]. cbn [oput]. destruct (j =? i) eqn:E; cbn [oput]; rewrite E; [reflexivity|]. now rewrite IH. Qed.
Lemma odrop_put i t o : odrop i (oput i t o) = odrop i o.
Proof.
  induction o as [|(j, w) o IH]; [reflexivity|]. cbn [oput]. unfold odrop in *. destruct (j =? i) eqn:E; cbn [filter fst]; rewrite E; cbn; [reflexivity|]. now rewrite IH.
Qed.
Lemma oput_in i t o k u : NoDup (map fst o) -> In i (map fst o) -> (In (k, u) (oput i t o) <-> (k = i /\ u = t) \/ (k <> i /\ In (k, u) o)).
Proof.
  induction o as [|(j, w) o IH]; intros Hn Hi; [easy|]. cbn [map fst] in Hn, Hi. inversion Hn as [|? ? N1 N2]; subst. cbn [oput]. destruct (Z.eqb_spec j i) as [->|Nj].
  - cbn [In]. split.
    + intros [H|H]; [left; split; congruence|]. right. split; [|now right]. intros ->. apply in_fst in H. contradiction.
    + intros [(-> & ->)|(H1 & [H2|H2])]; [now left|congruence|now right].
  - cbn [In]. destruct Hi as [Hi|Hi]; [congruence|]. rewrite (IH N2 Hi). split.
    + intros [H|[H|(H1 & H2)]]; [right; split; [congruence|now left]|now left|right; split; [assumption|now right]].
    + intros [H|(H1 & [H2|H2])]; [right; now left|now left|right; right; now split].
Qed.
Lemma oput_new i t t0 o : oput i t ((i, t0) :: o) = (i, t) :: o.
Proof. cbn [oput]. now rewrite Z.eqb_refl. Qed.
Lemma odrop_in i (o : list (Z * gtensor)) k (u : gtensor) : In (k, u) (odrop i o) <-> k <> i /\ In (k, u) o.
Proof. unfold odrop. rewrite filter_In. cbn [fst]. destruct (Z.eqb_spec k i); cbn; split; try tauto; try easy; intros (H & _); congruence. Qed.
Lemma odrop_names i (o : list (Z * gtensor)) : NoDup (map fst o) -> NoDup (map fst (odrop i o)).
Proof.
  induction o as [|(j, w) o IH]; intro H; [constructor|]. cbn [map fst] in H. inversion H as [|? ? N1 N2]; subst. unfold odrop in *. cbn [filter fst]. destruct (Z.eqb_spec j i); cbn [negb]; [now apply IH|].
  cbn [map fst]. constructor; [|now apply IH]. intro Hj. apply N1. apply in_map_iff in Hj. destruct Hj as ((a, b) & <- & Hj). apply filter_In in Hj. apply (in_fst a b). tauto.
Qed.

Section Objects.
Context {V : Type} (junk : V).
Notation state := (@gstate V).
Notation heapV := (heap V).
Definition null_arr (t : gtensor) : Prop := garr t = None.
Lemma laid_keep (h h' : heapV) t dims b : laid h t dims -> garr t = Some b -> In b (hlive h') -> (forall a, hmem h' b a <> None <-> hmem h b a <> None) -> laid h' t dims.
Proof.
  intros (H1 & H2 & H3 & H4 & (c & Hc & Hl & Hs) & H6) Hb Hlive Hcells. repeat (split; [assumption|]). split; [|exact H6]. exists c. split; [exact Hc|]. assert (c = b) by congruence. subst c. split; [exact Hlive|]. intro a. rewrite Hcells. apply Hs.
Qed.
Lemma free_ok (h : heapV) b : heap_ok h -> In b (hlive h) -> exists h', free_arr (Some b) h = Ok h' /\ heap_ok h' /\ (forall c, In c (hlive h') <-> In c (hlive h) /\ c <> b) /\ (forall c a, c <> b -> hmem h' c a = hmem h c a) /\ hnext h' = hnext h.
Proof.
  intros (H1 & H2 & H3 & H4) Hb. unfold free_arr. replace (existsb (Z.eqb b) (hlive h)) with true.
  2:{ symmetry. apply existsb_exists. exists b. split; [exact Hb|apply Z.eqb_refl]. }
  assert (Hin : forall c, In c (filter (fun b' => negb (b' =? b)) (hlive h)) <-> In c (hlive h) /\ c <> b). { intro c. rewrite filter_In. destruct (Z.eqb_spec c b); cbn; split; try tauto; try easy; intros (? & ?); congruence. }
  eexists. split; [reflexivity|]. split; [|split; [exact Hin|split; [|reflexivity]]].
  - split; [cbn; now apply NoDup_filter|split; [|split; [exact H3|]]]; cbn.
    + intros c Hc. apply Hin in Hc. now apply H2.
    + intros c a Hc. apply Hin. destruct (Z.eqb_spec c b) as [->|N]; [easy|]. split; [now apply (H4 c a)|exact N].
  - intros c a N. cbn. now destruct (Z.eqb_spec c b).
Qed.

(* the steps out of which the statements are made *)
Lemma null_decl (s : state) i t : accounted s -> sized s -> ~ In i (names s) -> garr t = None -> accounted (GS ((i, t) :: gobj s) (gheap s)) /\ sized (GS ((i, t) :: gobj s) (gheap s)).
Proof.
  intros (H1 & H2 & H3 & H4 & H5) Hs Hi Ht. unfold accounted, sized, names, object in *. cbn [gobj gheap map fst] in *. split; [split; [exact H1|split; [now constructor|split; [|split]]]|].
  - intro b. rewrite H3. split; [intros (j & u & Hu & Ho); exists j, u; split; [now right|exact Ho]|intros (j & u & [Hu|Hu] & Ho)]; [|now exists j, u]. injection Hu as -> ->. destruct Ho. congruence.
  - intros a c u w b [Hu|Hu] [Hw|Hw] O1 O2; try (injection Hu as -> ->; destruct O1; congruence); try (injection Hw as -> ->; destruct O2; congruence). exact (H4 a c u w b Hu Hw O1 O2).
  - intros a u b [Hu|Hu] Hb; [injection Hu as -> ->; congruence|]. exact (H5 a u b Hu Hb).
  - intros a u b [Hu|Hu] Hb; [injection Hu as -> ->; congruence|]. exact (Hs a u b Hu Hb).
Qed.
Lemma view_decl (s : state) i t j x : accounted s -> sized s -> ~ In i (names s) -> object s j x -> garr t = garr x -> gisview t = true -> laid (gheap s) t (gdims t) -> 0 <= gasize t <= gmemsize t ->
  accounted (GS ((i, t) :: gobj s) (gheap s)) /\ sized (GS ((i, t) :: gobj s) (gheap s)).
Proof.
  intros (H1 & H2 & H3 & H4 & H5) Hs Hi Hx Et Ev HL Hb. unfold accounted, sized, names, object in *. cbn [gobj gheap map fst] in *. split; [split; [exact H1|split; [now constructor|split; [|split]]]|].
  - intro b. rewrite H3. split; [intros (k & u & Hu & Ho); exists k, u; split; [now right|exact Ho]|intros (k & u & [Hu|Hu] & Ho)]; [|now exists k, u]. injection Hu as -> ->. destruct Ho. congruence.
  - intros a c u w b [Hu|Hu] [Hw|Hw] O1 O2; try (injection Hu as -> ->; destruct O1; congruence); try (injection Hw as -> ->; destruct O2; congruence). exact (H4 a c u w b Hu Hw O1 O2).
  - intros a u b [Hu|Hu] Hb'; [injection Hu as -> ->; apply (H5 j x b Hx); congruence|]. exact (H5 a u b Hu Hb').
  - intros a u b [Hu|Hu] Hb'; [injection Hu as <- <-; now split|]. exact (Hs a u b Hu Hb').
Qed.
Lemma drop_null (s : state) i t : accounted s -> sized s -> object s i t -> garr t = None -> accounted (GS (odrop i (gobj s)) (gheap s)) /\ sized (GS (odrop i (gobj s)) (gheap s)).
Proof.
  intros (H1 & H2 & H3 & H4 & H5) Hs Hi Ht. unfold accounted, sized, names, object in *. cbn [gobj gheap] in *. split; [split; [exact H1|split; [now apply odrop_names|split; [|split]]]|].
  - intro b. rewrite H3. split; intros (j & u & Hu & Ho); exists j, u; [|apply odrop_in in Hu; now split]. split; [|exact Ho]. apply odrop_in. split; [|exact Hu]. intros ->.
    pose proof (olook_in _ _ _ H2 Hi). pose proof (olook_in _ _ _ H2 Hu). destruct Ho. congruence.
  - intros a c u w b Hu Hw. apply odrop_in in Hu, Hw. now apply H4.
  - intros a u b Hu. apply odrop_in in Hu. now apply (H5 a).
  - intros a u b Hu. apply odrop_in in Hu. now apply (Hs a).
Qed.
Lemma refill (s : state) i t0 t (h' : heapV) : accounted s -> sized s -> object s i t0 -> garr t0 = None -> adds_array (gheap s) t h' -> laid h' t (gdims t) -> 0 <= gasize t <= gmemsize t ->
  accounted (GS (oput i t (gobj s)) h') /\ sized (GS (oput i t (gobj s)) h').
Proof.
  intros (H1 & H2 & H3 & H4 & H5) Hs Hi Hn (b0 & Hb0 & Hv & Nf & El & Hok & Eo) HL Hba. unfold accounted, sized, names, object in *. cbn [gobj gheap] in *. rewrite oput_names. pose proof (in_fst _ _ _ Hi) as Hin.
  pose proof (fun k u => oput_in i t (gobj s) k u H2 Hin) as HO. split; [split; [exact Hok|split; [exact H2|split; [|split]]]|].
  - intro b. rewrite El. cbn [In]. rewrite H3. split.
    + intros [<-|(j & u & Hu & Ho)]; [exists i, t; split; [apply HO; now left|now split]|]. exists j, u. split; [|exact Ho]. apply HO. right. split; [|exact Hu]. intros ->. pose proof (olook_in _ _ _ H2 Hi). pose proof (olook_in _ _ _ H2 Hu). destruct Ho. congruence.
    + intros (j & u & Hu & Ho). apply HO in Hu. destruct Hu as [(-> & ->)|(Nj & Hu)]; [left; destruct Ho; congruence|right; now exists j, u].
  - assert (G : forall j u, In (j, u) (gobj s) -> ~ owns u b0). { intros j u Hu Ho. apply Nf. apply H3. now exists j, u. }
    intros a c u w b Hu Hw O1 O2. apply HO in Hu, Hw. destruct Hu as [(-> & ->)|(Na & Hu)], Hw as [(-> & ->)|(Nc & Hw)]; try reflexivity; [| |exact (H4 a c u w b Hu Hw O1 O2)].
    + exfalso. apply (G c w Hw). assert (b = b0) by (destruct O1; congruence). now subst b.
    + exfalso. apply (G a u Hu). assert (b = b0) by (destruct O2; congruence). now subst b.
  - intros a u b Hu Hb. rewrite El. apply HO in Hu. destruct Hu as [(-> & ->)|(Na & Hu)]; [left; congruence|right; exact (H5 a u b Hu Hb)].
  - intros a u b Hu Hb. apply HO in Hu. destruct Hu as [(-> & ->)|(Na & Hu)]; [now split|]. destruct (Hs a u b Hu Hb) as (HLu & Hbu). split; [|exact Hbu]. pose proof (H5 a u b Hu Hb) as Hlive.
    apply (laid_keep (gheap s) h' u (gdims u) b HLu Hb); [rewrite El; now right|]. intro c. rewrite Eo; [reflexivity|]. intros ->. contradiction.
Qed.
Lemma release (s : state) i t : accounted s -> sized s -> object s i t -> unshared s i t -> exists h', (if gisview t then Ok (gheap s) else free_arr (garr t) (gheap s)) = Ok h' /\
  (forall b, In b (hlive h') <-> In b (hlive (gheap s)) /\ ~ owns t b) /\ (forall b a, ~ owns t b -> hmem h' b a = hmem (gheap s) b a) /\
  accounted (GS (oput i (with_arr t None) (gobj s)) h') /\ sized (GS (oput i (with_arr t None) (gobj s)) h').
Proof.
  intros HA Hs Hi Hu. pose proof HA as (H1 & H2 & H3 & H4 & H5). pose proof (in_fst _ _ _ Hi) as Hin.
  assert (exists h', (if gisview t then Ok (gheap s) else free_arr (garr t) (gheap s)) = Ok h' /\ heap_ok h' /\ (forall b, In b (hlive h') <-> In b (hlive (gheap s)) /\ ~ owns t b) /\ (forall b a, ~ owns t b -> hmem h' b a = hmem (gheap s) b a)) as (h' & E & Hok & El & Eo).
  { destruct (gisview t) eqn:Ev.
    - exists (gheap s). split; [reflexivity|split; [exact H1|split; [|reflexivity]]]. intro b. split; [|tauto]. intro Hb. split; [exact Hb|]. intros (_ & Q). congruence.
    - destruct (garr t) as [b|] eqn:Eb.
      + destruct (free_ok (gheap s) b H1 (H5 i t b Hi Eb)) as (h' & E & Hok & El & Eo & _). exists h'. split; [exact E|split; [exact Hok|]].
        assert (Q : forall c, ~ owns t c <-> c <> b) by (intro c; unfold owns; rewrite Eb; split; [intros N ->; now apply N|intros N (Q & _); congruence]).
        split; [intro c; now rewrite El, Q|]. intros c a N. apply Eo. now apply Q.
      + exists (gheap s). split; [reflexivity|split; [exact H1|split; [|reflexivity]]]. intro b. split; [|tauto]. intro Hb. split; [exact Hb|]. intros (Q & _). congruence. }
  exists h'. split; [exact E|split; [exact El|split; [exact Eo|]]].
  assert (G : forall j u b, j <> i -> In (j, u) (gobj s) -> garr u = Some b -> ~ owns t b) by (intros j u b Nj Hj Hb Ho; exact (Nj (Hu b j u Ho Hj Hb))).
  unfold accounted, sized, names, object in *. cbn [gobj gheap] in *. rewrite oput_names. pose proof (fun k u => oput_in i (with_arr t None) (gobj s) k u H2 Hin) as HO.
  split; [split; [exact Hok|split; [exact H2|split; [|split]]]|].
  - intro b. rewrite El, H3. split.
    + intros ((j & u & Hj & Ho) & No). exists j, u. split; [|exact Ho]. apply HO. right. split; [|exact Hj]. intros ->. apply No. assert (u = t) by (pose proof (olook_in _ _ _ H2 Hi); pose proof (olook_in _ _ _ H2 Hj); congruence). now subst u.
    + intros (j & u & Hj & Ho). apply HO in Hj. destruct Hj as [(-> & ->)|(Nj & Hj)]; [destruct Ho as (Q & _); discriminate|]. split; [now exists j, u|]. apply (G j u b Nj Hj). apply Ho.
  - intros a c u w b Hu' Hw O1 O2. apply HO in Hu', Hw. destruct Hu' as [(-> & ->)|(Na & Hu')]; [destruct O1; discriminate|]. destruct Hw as [(-> & ->)|(Nc & Hw)]; [destruct O2; discriminate|]. exact (H4 a c u w b Hu' Hw O1 O2).
  - intros a u b Hu' Hb. apply HO in Hu'. destruct Hu' as [(-> & ->)|(Na & Hu')]; [discriminate|]. apply El. split; [exact (H5 a u b Hu' Hb)|exact (G a u b Na Hu' Hb)].
  - intros a u b Hu' Hb. apply HO in Hu'. destruct Hu' as [(-> & ->)|(Na & Hu')]; [discriminate|]. destruct (Hs a u b Hu' Hb) as (HLu & Hbu). split; [|exact Hbu]. pose proof (G a u b Na Hu' Hb) as Nob.
    apply (laid_keep (gheap s) h' u (gdims u) b HLu Hb); [apply El; split; [exact (H5 a u b Hu' Hb)|exact Nob]|]. intro c. now rewrite Eo.
Qed.
Lemma laid_same (h : heapV) x y dims : gk x = gk y -> gdims x = gdims y -> gstr x = gstr y -> gmemsize x = gmemsize y -> garr x = garr y -> laid h x dims -> laid h y dims.
Proof. intros E1 E2 E3 E4 E5. unfold laid, has_cells, gview. now rewrite E1, E2, E3, E4, E5. Qed.
Lemma transfer (s : state) i j t0 x : accounted s -> sized s -> i <> j -> object s i t0 -> garr t0 = None -> object s j x ->
  accounted (GS (oput j (with_arr x None) (oput i x (gobj s))) (gheap s)) /\ sized (GS (oput j (with_arr x None) (oput i x (gobj s))) (gheap s)).
Proof.
  intros (H1 & H2 & H3 & H4 & H5) Hs Nij Hi Hn Hj. unfold accounted, sized, names, object in *. cbn [gobj gheap] in *. rewrite !oput_names. pose proof (in_fst _ _ _ Hi) as Ii. pose proof (in_fst _ _ _ Hj) as Ij.
  assert (HO : forall k u, In (k, u) (oput j (with_arr x None) (oput i x (gobj s))) <-> (k = j /\ u = with_arr x None) \/ (k = i /\ u = x) \/ (k <> i /\ k <> j /\ In (k, u) (gobj s))).
  { intros k u. rewrite oput_in by (rewrite oput_names; assumption). rewrite oput_in by assumption. split; [intros [Q|(Q & [Q'|Q'])]; tauto|intros [Q|[(-> & ->)|Q]]; [tauto|right; split; [exact Nij|now left]|tauto]]. }
  assert (Ui : forall u, In (i, u) (gobj s) -> u = t0) by (intros u Q; pose proof (olook_in _ _ _ H2 Hi); pose proof (olook_in _ _ _ H2 Q); congruence).
  assert (Uj : forall u, In (j, u) (gobj s) -> u = x) by (intros u Q; pose proof (olook_in _ _ _ H2 Hj); pose proof (olook_in _ _ _ H2 Q); congruence).
  split; [split; [exact H1|split; [exact H2|split; [|split]]]|].
  - intro b. rewrite H3. split.
    + intros (k & u & Hk & Ho). destruct (Z.eq_dec k j) as [->|Nk]; [apply Uj in Hk; subst u; exists i, x; split; [apply HO; tauto|exact Ho]|]. destruct (Z.eq_dec k i) as [->|Nk']; [apply Ui in Hk; subst u; destruct Ho; congruence|]. exists k, u. split; [apply HO; tauto|exact Ho].
    + intros (k & u & Hk & Ho). apply HO in Hk. destruct Hk as [(-> & ->)|[(-> & ->)|(_ & _ & Hk)]]; [destruct Ho; discriminate|now exists j, x|now exists k, u].
  - intros a c u w b Hu Hw O1 O2. apply HO in Hu, Hw. destruct Hu as [(-> & ->)|[(-> & ->)|(Na & Na' & Hu)]]; [destruct O1; discriminate| |]; (destruct Hw as [(-> & ->)|[(-> & ->)|(Nc & Nc' & Hw)]]; [destruct O2; discriminate| |]); try reflexivity.
    + exfalso. apply Nc'. exact (H4 c j w x b Hw Hj O2 O1).
    + exfalso. apply Na'. exact (H4 a j u x b Hu Hj O1 O2).
    + exact (H4 a c u w b Hu Hw O1 O2).
  - intros a u b Hu Hb. apply HO in Hu. destruct Hu as [(-> & ->)|[(-> & ->)|(Na & Na' & Hu)]]; [discriminate|exact (H5 j x b Hj Hb)|exact (H5 a u b Hu Hb)].
  - intros a u b Hu Hb. apply HO in Hu. destruct Hu as [(-> & ->)|[(-> & ->)|(Na & Na' & Hu)]]; [discriminate|exact (Hs j x b Hj Hb)|exact (Hs a u b Hu Hb)].
Qed.
Lemma in_place (s : state) (h' : heapV) : accounted s -> sized s -> hlive h' = hlive (gheap s) -> hnext h' = hnext (gheap s) -> (forall b a, hmem h' b a <> None <-> hmem (gheap s) b a <> None) ->
  accounted (GS (gobj s) h') /\ sized (GS (gobj s) h').
Proof.
  intros ((K1 & K2 & K3 & K4) & H2 & H3 & H4 & H5) Hs El En Ec. unfold accounted, sized, names, object in *. cbn [gobj gheap] in *. rewrite El. split; [split; [|split; [exact H2|split; [exact H3|split; [exact H4|exact H5]]]]|].
  - unfold heap_ok. rewrite El, En. repeat (split; [assumption|]). intros b a Hb. apply (K4 b a). now apply Ec.
  - intros i t b Hi Hb. destruct (Hs i t b Hi Hb) as (HL & Hba). split; [|exact Hba]. apply (laid_keep (gheap s) h' t (gdims t) b HL Hb); [rewrite El; exact (H5 i t b Hi Hb)|]. intro a. apply Ec.
Qed.
(* a new array for a name that is declared *)
Lemma declare_inv (s : state) i t (h' : heapV) : accounted s -> sized s -> ~ In i (names s) -> adds_array (gheap s) t h' -> laid h' t (gdims t) -> 0 <= gasize t <= gmemsize t ->
  accounted (GS ((i, t) :: gobj s) h') /\ sized (GS ((i, t) :: gobj s) h').
Proof.
  intros HA Hs Hi Had HL Hb. destruct (null_decl s i (with_arr t None) HA Hs Hi eq_refl) as (HA1 & Hs1).
  pose proof (refill (GS ((i, with_arr t None) :: gobj s) (gheap s)) i (with_arr t None) t h' HA1 Hs1 (or_introl eq_refl) eq_refl Had HL Hb) as Q. cbn [gobj gheap] in Q. now rewrite oput_new in Q.
Qed.
(* the copy made by an assignment *)
Lemma assign_copy (h : heapV) x dims v : heap_ok h -> laid h x dims -> 0 <= gmemsize x -> exists b h1 h2 t, new_arr junk (gmemsize x) h = Ok (b, h1) /\
  t = GT (gk x) (gak x) (gdims x) (gstr x) (gasize x) (gmemsize x) (Some b) v /\ copy_arr x 0 t 0 (gmemsize x) h1 = Ok h2 /\ laid h2 t dims /\ ~ In b (hlive h) /\ hlive h2 = b :: hlive h /\ heap_ok h2 /\
  (forall b' a, b' <> b -> hmem h2 b' a = hmem h b' a) /\ forall ix, in_range ix dims -> gel h2 t ix = gel h x ix.
Proof.
  intros Hok HL Hm. pose proof HL as (Hd & Hk & Hls & Hn & Hc & _ & _). destruct (new_ok junk (gmemsize x) h Hm Hok) as (h1 & E & Hok1 & El & Nf & Eo & Ec). exists (hnext h), h1.
  remember (hnext h) as b eqn:Eb. clear Eb.
  assert (Hcs : forall a, hmem h1 b a <> None <-> 0 <= a < gmemsize x). { intro a. rewrite Ec. destruct (Z.leb_spec 0 a), (Z.ltb_spec a (gmemsize x)); cbn; split; try easy; lia. }
  remember (GT (gk x) (gak x) (gdims x) (gstr x) (gasize x) (gmemsize x) (Some b) v) as t eqn:Et.
  assert (Hb : garr t = Some b) by (now subst t). assert (Hct : has_cells h1 t (gmemsize x)). { exists b. split; [exact Hb|split; [rewrite El; now left|exact Hcs]]. }
  assert (HA : adds_array h (with_arr (GT (gk x) (gak x) (gdims x) (gstr x) (gasize x) (gmemsize x) (Some b) false) (Some b)) h1) by (exists b; repeat (split; [first [assumption|reflexivity]|]); assumption).
  assert (Nx : garr x <> Some b) by (now apply (adds_apart h _ h1 x (gmemsize x) b HA eq_refl)).
  unfold copy_arr. destruct (loop_ok h1 t b 0 (gmemsize x) (gmemsize x) (cellv junk h x) (fun i h' => rd h' x (0 + i))) as (h2 & E2 & P2); try assumption; try lia.
  { intros i h' Hir P'. rewrite (rd_other b 0 i _ h1 h' x _ P') by (now left). change (0 + i) with i. rewrite (rd_cellv junk h1 x (gmemsize x)) by (try assumption; now apply (adds_has h _ h1 x _ HA)). f_equal. now apply (cellv_adds junk h _ h1 x (gmemsize x) i HA). }
  exists h2, t. split; [exact E|split; [reflexivity|split; [exact E2|]]]. pose proof (cells_in h1 t b 0 (gmemsize x) (gmemsize x) Hct Hb ltac:(lia) ltac:(lia)) as Hci.
  split; [|split; [exact Nf|split; [|split; [|split]]]].
  - apply (copied_laid h h2 x t dims HL); try (now subst t). replace (gmemsize t) with (gmemsize x) by (now subst t). apply (painted_has b 0 _ _ h1 h2 t _ P2); assumption.
  - rewrite (proj1 P2). exact El.
  - apply (painted_ok b 0 _ _ h1 h2 Hok1 P2 Hci).
  - intros b' a N. rewrite (painted_block b 0 _ _ h1 h2 b' a P2 N). now apply Eo.
  - apply (copied_gel junk h h2 x t b dims (gmemsize x) HL Hb); try (now subst t); try lia. intros a Hr. now apply (painted_in0 b (gmemsize x) _ h1 h2).
Qed.
Lemma sized_neg (h : heapV) t : laid h t (gdims t) -> 0 <= gasize t <= gmemsize t -> 0 <= gmemsize t. Proof. lia. Qed.

(* the effect of each statement *)
Lemma copy_step (s : state) i j x : accounted s -> sized s -> ~ In i (names s) -> object s j x -> garr x <> None -> gasize x = gmemsize x ->
  exists t h', gstep junk (GCopy i j) s = Ok (GS ((i, t) :: gobj s) h') /\ adds_array (gheap s) t h' /\ gdims t = gdims x /\ laid h' t (gdims t) /\ 0 <= gasize t <= gmemsize t /\ forall ix, in_range ix (gdims x) -> gel h' t ix = gel (gheap s) x ix.
Proof.
  intros HA Hs Hi Hj Hx Ea. pose proof HA as (H1 & H2 & _). destruct (garr x) as [b|] eqn:Eb; [|easy]. destruct (Hs j x b Hj Eb) as (HL & Hba). cbn [gstep]. rewrite (olook_in _ _ _ H2 Hj). cbn [bind].
  destruct (copy_ok junk (gheap s) x (gdims x) H1 HL ltac:(lia) Ea) as (t & h' & E & HLt & Eat & Emt & Est & Had & Hg). unfold gdeclare. rewrite E. cbn [bind]. exists t, h'. split; [reflexivity|split; [exact Had|]].
  assert (Ed : gdims t = gdims x) by (exact (proj1 HLt)). split; [exact Ed|]. rewrite Ed. split; [exact HLt|split; [lia|exact Hg]].
Qed.
Lemma assign_step (s : state) i j t x : accounted s -> sized s -> i <> j -> object s i t -> object s j x -> gisview t = false -> unshared s i t -> garr x <> None ->
  exists t' h', gstep junk (GAssign i j) s = Ok (GS (oput i t' (gobj s)) h') /\ accounted (GS (oput i t' (gobj s)) h') /\ sized (GS (oput i t' (gobj s)) h') /\ gdims t' = gdims x /\
    (forall ix, in_range ix (gdims x) -> gel h' t' ix = gel (gheap s) x ix) /\
    (forall b a, In b (hlive (gheap s)) -> ~ owns t b -> hmem h' b a = hmem (gheap s) b a).
Proof.
  intros HA Hs Nij Hi Hj Hv Hu Hx. destruct (garr x) as [b|] eqn:Eb; [|easy]. pose proof HA as (H1 & H2 & _ & _ & H5). destruct (Hs j x b Hj Eb) as (HL & Hba).
  destruct (release s i t HA Hs Hi Hu) as (h1 & E1 & El1 & Eo1 & HA1 & Hs1). cbn [gstep]. unfold gassign. rewrite (olook_in _ _ _ H2 Hi), (olook_in _ _ _ H2 Hj). cbn [bind]. rewrite E1. cbn [bind]. rewrite Hv.
  assert (Nob : ~ owns t b) by (intro Q; apply Nij; symmetry; exact (Hu b j x Q Hj Eb)). assert (Hj1 : In (j, x) (oput i (with_arr t None) (gobj s))) by (apply oput_in; [exact H2|exact (in_fst _ _ _ Hi)|right; split; [congruence|exact Hj]]).
  destruct (Hs1 j x b Hj1 Eb) as (HL1 & _). cbn [gheap] in HL1.
  destruct (assign_copy h1 x (gdims x) false (proj1 HA1) HL1 ltac:(lia)) as (b' & h2 & h3 & t' & E2 & Et' & E3 & HL3 & Nf & El3 & Hok3 & Eo3 & Hg). rewrite E2. cbn [bind]. rewrite <- Et'.
  assert (Hj2 : In (j, x) (oput i t' (gobj s))) by (apply oput_in; [exact H2|exact (in_fst _ _ _ Hi)|right; split; [congruence|exact Hj]]). rewrite (olook_in (oput i t' (gobj s)) j x) by (try exact Hj2; now rewrite oput_names). cbn [bind]. rewrite E3. cbn [bind].
  assert (Hi1 : object (GS (oput i (with_arr t None) (gobj s)) h1) i (with_arr t None)). { unfold object. cbn [gobj]. apply oput_in; [exact H2|exact (in_fst _ _ _ Hi)|now left]. }
  assert (Ed : gdims t' = gdims x) by (now subst t').
  assert (Had : adds_array h1 t' h3) by (exists b'; repeat (split; [first [assumption|now subst t']|]); assumption).
  destruct (refill (GS (oput i (with_arr t None) (gobj s)) h1) i (with_arr t None) t' h3 HA1 Hs1 Hi1 eq_refl Had) as (Q1 & Q2); [now rewrite Ed|subst t'; cbn; lia|]. cbn [gobj gheap] in Q1, Q2. rewrite oput_twice in Q1, Q2.
  exists t', h3. split; [reflexivity|split; [exact Q1|split; [exact Q2|split; [exact Ed|split]]]].
  - intros ix Hr. rewrite Hg by assumption. destruct (laid_len h1 x (gdims x) ix HL1 Hr) as (L & _). rewrite !(gel_eq _ x b ix Eb L). now apply Eo1.
  - intros c a Hc No. rewrite Eo3; [now apply Eo1|]. intros ->. apply Nf. apply El1. now split.
Qed.
Lemma gstep_ok (s : state) o : accounted s -> sized s -> allowed s o -> exists s', gstep junk o s = Ok s' /\ accounted s' /\ sized s'.
Proof.
  intros HA Hs Ho. pose proof HA as (H1 & H2 & H3 & H4 & H5). destruct o as [i dims|i adims dims|i j|i j|i j|i j|i j dims|i ix v|i]; cbn [allowed] in Ho.
  - destruct Ho as (Hi & Hd & Hn). cbn [gstep]. destruct (new_plain junk dims (gheap s) Hd Hn H1) as (t & h' & b & E & HP & Had & _). unfold gdeclare. rewrite E. cbn [bind]. eexists. split; [reflexivity|].
    pose proof HP as (_ & _ & Ed & _ & _ & Ea & Em & _). apply declare_inv; try assumption; [rewrite Ed; now apply plain_laid|]. pose proof (prod_nonneg _ Hn). lia.
  - destruct Ho as (Hi & Hda & Hd & Hna & Hn). cbn [gstep]. destruct (new_array_ok junk adims dims (gheap s) Hda Hd Hna Hn H1) as (t & h' & b & P & E & HP & Had & _). unfold gdeclare. rewrite E. cbn [bind]. eexists. split; [reflexivity|].
    pose proof HP as (_ & _ & _ & _ & HPd & Ed & _ & _ & Ea & Em & _). apply declare_inv; try assumption; [rewrite Ed; now apply (padded_laid h' t adims dims P)|]. pose proof (prod_nonneg _ Hn). pose proof (prod_nonneg _ Hna). rewrite Ea, Em, prod_app. nia.
  - destruct Ho as (Hi & x & Hj & Hx & Ea). destruct (copy_step s i j x HA Hs Hi Hj Hx Ea) as (t & h' & E & Had & _ & HL & Hb & _). eexists. split; [exact E|]. now apply declare_inv.
  - destruct Ho as (Hi & Hj). apply in_names in Hj. destruct Hj as (x & Hj). cbn [gstep]. unfold gmove. rewrite (olook_in _ _ _ H2 Hj). cbn [bind]. eexists. split; [reflexivity|].
    destruct (null_decl s i (with_arr x None) HA Hs Hi eq_refl) as (HA1 & Hs1). assert (Nij : i <> j) by (intros ->; apply Hi; exact (in_fst _ _ _ Hj)).
    pose proof (transfer (GS ((i, with_arr x None) :: gobj s) (gheap s)) i j (with_arr x None) x HA1 Hs1 Nij (or_introl eq_refl) eq_refl (or_intror Hj)) as Q. cbn [gobj gheap] in Q. rewrite oput_new in Q. cbn [oput] in Q. now rewrite (proj2 (Z.eqb_neq i j) Nij) in Q.
  - destruct Ho as (Nij & t & x & Hi & Hj & Hv & Hu & Hx). destruct (assign_step s i j t x HA Hs Nij Hi Hj Hv Hu Hx) as (t' & h' & E & Q1 & Q2 & _). eexists. split; [exact E|now split].
  - destruct Ho as (Nij & Hj & t & Hi & Hu). apply in_names in Hj. destruct Hj as (x & Hj). destruct (release s i t HA Hs Hi Hu) as (h1 & E1 & El1 & Eo1 & HA1 & Hs1). cbn [gstep]. unfold gmove_assign.
    rewrite (olook_in _ _ _ H2 Hi), (olook_in _ _ _ H2 Hj). cbn [bind]. rewrite E1. cbn [bind]. replace (GT (gk x) (gak x) (gdims x) (gstr x) (gasize x) (gmemsize x) (garr x) (gisview x)) with x by (now destruct x).
    rewrite (olook_in (oput i x (gobj s)) j x); [|now rewrite oput_names|apply oput_in; [exact H2|exact (in_fst _ _ _ Hi)|right; split; [congruence|exact Hj]]]. cbn [bind]. eexists. split; [reflexivity|].
    pose proof (transfer (GS (oput i (with_arr t None) (gobj s)) h1) i j (with_arr t None) x HA1 Hs1 Nij) as Q. cbn [gobj gheap] in Q. rewrite oput_twice in Q. apply Q; [|reflexivity|].
    + unfold object. cbn [gobj]. apply oput_in; [exact H2|exact (in_fst _ _ _ Hi)|now left].
    + unfold object. cbn [gobj]. apply oput_in; [exact H2|exact (in_fst _ _ _ Hi)|right; split; [congruence|exact Hj]].
  - destruct Ho as (Hi & Hd & Hn & x & Hj & Hx & Ep). destruct (garr x) as [b|] eqn:Eb; [|easy]. destruct (Hs j x b Hj Eb) as (HL & Hba). cbn [gstep]. rewrite (olook_in _ _ _ H2 Hj). cbn [bind]. unfold greshape_view. rewrite (strides_ok dims Hd). cbn [bind].
    rewrite Ep, Z.eqb_refl. cbn [assrt bind]. unfold gdeclare. cbn [bind]. eexists. split; [reflexivity|]. apply (view_decl s i _ j x HA Hs Hi Hj); cbn; [congruence|reflexivity| |exact Hba].
    destruct HL as (_ & _ & _ & _ & (c & Hc & Hlc & Hcs) & _). split; [reflexivity|split; [reflexivity|split; [apply strides_of_length|split; [exact Hn|split; [now exists c|split]]]]].
    + intros ix jx Hr1 Hr2 E. cbn in Hr1, Hr2. rewrite !(vaddr_g _ c) in E by (try exact Hc; cbn; rewrite strides_of_length; now apply in_range_length). cbn [gstr] in E. rewrite !dot_strides_of, !Z.mul_1_l in E by (now apply in_range_length).
      apply (flat_inj ix jx dims Hr1 Hr2). congruence.
    + intros ix Hr. cbn [gstr gmemsize]. rewrite dot_strides_of by (now apply in_range_length). pose proof (flat_range ix dims Hr). lia.
  - destruct Ho as (t & Hi & Ht & Hr). destruct (garr t) as [b|] eqn:Eb; [|easy]. destruct (Hs i t b Hi Eb) as (HL & Hba). cbn [gstep]. rewrite (olook_in _ _ _ H2 Hi). cbn [bind].
    unfold gset. destruct (laid_len (gheap s) t (gdims t) ix HL Hr) as (L & K). rewrite goff_ok by (auto; lia). cbn [bind]. destruct (laid_rd (gheap s) t (gdims t) ix HL Hr) as (b' & v0 & Hb' & _ & _ & Hm). unfold wr, store. rewrite Hb', Hm. cbn [bind]. eexists. split; [reflexivity|].
    apply in_place; try assumption; try reflexivity. intros c a. cbn [hmem]. unfold upd. destruct (Z.eqb_spec c b'), (Z.eqb_spec a (dot (gstr t) ix)); cbn; subst; try tauto. rewrite Hm. split; easy.
  - destruct Ho as (t & Hi & Hu). destruct (release s i t HA Hs Hi Hu) as (h1 & E1 & El1 & Eo1 & HA1 & Hs1). cbn [gstep]. unfold gdestroy. rewrite (olook_in _ _ _ H2 Hi). cbn [bind]. rewrite E1. cbn [bind]. eexists. split; [reflexivity|].
    pose proof (drop_null (GS (oput i (with_arr t None) (gobj s)) h1) i (with_arr t None) HA1 Hs1) as Q. cbn [gobj gheap] in Q. rewrite odrop_put in Q. apply Q; [|reflexivity]. unfold object. cbn [gobj]. apply oput_in; [exact H2|exact (in_fst _ _ _ Hi)|now left].
Qed.
Lemma grun_ok l (s : state) : accounted s -> sized s -> legal junk l s -> exists s', grun junk l s = Ok s' /\ accounted s' /\ sized s'.
Proof.
  revert s. induction l as [|o l IH]; intros s HA Hs HL; cbn [grun legal] in *; [now exists s|]. destruct HL as (Ha & Hl). destruct (gstep_ok s o HA Hs Ha) as (s1 & E & HA1 & Hs1). rewrite E. cbn [bind]. apply IH; auto.
Qed.
Lemma start_ok : accounted (start : state) /\ sized (start : state).
Proof.
  unfold start. split; [|intros i t b []]. split; [|split; [constructor|split; [|split]]].
  - split; [constructor|split; [intros b []|split; [cbn; lia|]]]. cbn. intros b a Q. easy.
  - intro b. cbn. split; [intros []|intros (i & t & [] & _)].
  - intros i j t u b [].
  - intros i t b [].
Qed.
Lemma none_left (s : state) : accounted s -> gobj s = [] -> hlive (gheap s) = [].
Proof.
  intros (_ & _ & H3 & _) E. destruct (hlive (gheap s)) as [|b l] eqn:El; [reflexivity|]. destruct (proj1 (H3 b) ltac:(now left)) as (i & t & Hi & _). unfold object in Hi. rewrite E in Hi. destruct Hi.
Qed.
(* writing to one tensor does not change another that has its own array *)
Lemma set_apart (s s' : state) i j t u ix v jx : accounted s -> sized s -> object s i t -> object s j u -> apart t u -> gstep junk (GSet i ix v) s = Ok s' -> gel (gheap s') u jx = gel (gheap s) u jx /\ gobj s' = gobj s.
Proof.
  intros (H1 & H2 & _) Hs Hi Hj Hap E. cbn [gstep] in E. rewrite (olook_in _ _ _ H2 Hi) in E. cbn [bind] in E. unfold gset in E. destruct (goff t ix) as [a| |]; try discriminate. cbn [bind] in E. unfold wr in E. destruct (garr t) as [b|] eqn:Eb; [|discriminate].
  unfold store in E. destruct (hmem (gheap s) b a) eqn:Em; [|discriminate]. cbn [bind] in E. injection E as <-. cbn [gobj gheap]. split; [|reflexivity]. unfold gel. destruct (garr u) as [c|] eqn:Ec; [|reflexivity]. unfold elem.
  unfold apart in Hap. rewrite Eb, Ec in Hap. destruct (vaddr (gview u) jx) as [(c', a')| |] eqn:Ev; try reflexivity. cbn [hmem]. apply upd_other. intro Q. apply Hap. f_equal. assert (c' = c).
  { revert Ev. unfold vaddr, gview. rewrite Ec. cbn. destruct (_ : res Z); cbn; congruence || (intro; discriminate). }
  congruence.
Qed.
Lemma owners_apart (s : state) i j t u : accounted s -> object s i t -> object s j u -> i <> j -> gisview t = false -> gisview u = false -> garr t <> None -> apart t u.
Proof.
  intros (_ & _ & _ & H4 & _) Hi Hj Nij Ht Hu Hn E. destruct (garr t) as [b|] eqn:Eb; [|easy]. apply Nij. apply (H4 i j t u b Hi Hj); split; congruence.
Qed.
(* ---- what the excluded statements do ---- *)
Lemma self_assign (s : state) i t : accounted s -> sized s -> object s i t -> gisview t = false -> unshared s i t -> garr t <> None ->
  exists t' h', gstep junk (GAssign i i) s = Ok (GS (oput i t' (gobj s)) h') /\ gdims t' = gdims t /\ forall ix, in_range ix (gdims t) -> gel h' t' ix = Some junk.
Proof.
  intros HA Hs Hi Hv Hu Ht. pose proof HA as (H1 & H2 & _). destruct (garr t) as [b|] eqn:Eb; [|easy]. destruct (Hs i t b Hi Eb) as (HL & Hba). destruct (release s i t HA Hs Hi Hu) as (h1 & E1 & El1 & Eo1 & HA1 & Hs1).
  cbn [gstep]. unfold gassign. rewrite (olook_in _ _ _ H2 Hi). cbn [bind]. rewrite E1. cbn [bind]. destruct (new_ok junk (gmemsize t) h1 ltac:(lia) (proj1 HA1)) as (h2 & E2 & Hok2 & El2 & Nf2 & Eo2 & Ec2). rewrite E2. cbn [bind].
  remember (hnext h1) as c eqn:Eqc. clear Eqc. remember (GT (gk t) (gak t) (gdims t) (gstr t) (gasize t) (gmemsize t) (Some c) (gisview t)) as t' eqn:Et'. assert (Hc : garr t' = Some c) by (now subst t').
  rewrite (olook_in (oput i t' (gobj s)) i t'); [|now rewrite oput_names|apply oput_in; [exact H2|exact (in_fst _ _ _ Hi)|now left]]. cbn [bind].
  assert (Hct : has_cells h2 t' (gmemsize t)). { exists c. split; [exact Hc|split; [rewrite El2; now left|]]. intro a. rewrite Ec2. destruct (Z.leb_spec 0 a), (Z.ltb_spec a (gmemsize t)); cbn; split; try easy; lia. }
  unfold copy_arr. destruct (loop_ok h2 t' c 0 (gmemsize t) (gmemsize t) (fun _ => junk) (fun i h' => rd h' t' (0 + i))) as (h3 & E3 & P3); try assumption; try lia.
  { intros k h' Hk P'. rewrite (rd_other c 0 k _ h2 h' t' _ P') by (right; lia). unfold rd, load. rewrite Hc, Ec2. change (0 + k) with k. destruct (Z.leb_spec 0 k), (Z.ltb_spec k (gmemsize t)); try lia. reflexivity. }
  rewrite E3. cbn [bind]. exists t', h3. split; [reflexivity|split; [now subst t'|]]. intros ix Hr. destruct (laid_len _ t _ ix HL Hr) as (L & _). assert (Es : gstr t' = gstr t) by (now subst t'). rewrite (gel_eq h3 t' c ix Hc) by (now rewrite Es). rewrite Es.
  apply (painted_in0 c (gmemsize t) _ h2 h3 _ P3). now apply HL.
Qed.
Lemma self_move (s : state) i t : accounted s -> sized s -> object s i t -> unshared s i t -> exists t' h', gstep junk (GMoveAssign i i) s = Ok (GS (oput i t' (gobj s)) h') /\ garr t' = None.
Proof.
  intros HA Hs Hi Hu. pose proof HA as (H1 & H2 & _). destruct (release s i t HA Hs Hi Hu) as (h1 & E1 & _). cbn [gstep]. unfold gmove_assign. rewrite (olook_in _ _ _ H2 Hi). cbn [bind]. rewrite E1. cbn [bind].
  replace (GT (gk t) (gak t) (gdims t) (gstr t) (gasize t) (gmemsize t) (garr t) (gisview t)) with t by (now destruct t).
  rewrite (olook_in (oput i t (gobj s)) i t); [|now rewrite oput_names|apply oput_in; [exact H2|exact (in_fst _ _ _ Hi)|now left]]. cbn [bind]. rewrite oput_twice. now exists (with_arr t None), h1.
Qed.
Lemma view_assign_leaks (s : state) i j t x : accounted s -> sized s -> i <> j -> object s i t -> object s j x -> gisview t = true -> garr x <> None ->
  exists s' b, gstep junk (GAssign i j) s = Ok s' /\ In b (hlive (gheap s')) /\ forall k u, object s' k u -> ~ owns u b.
Proof.
  intros HA Hs Nij Hi Hj Hv Hx. destruct (garr x) as [b|] eqn:Eb; [|easy]. pose proof HA as (H1 & H2 & H3 & H4 & H5). destruct (Hs j x b Hj Eb) as (HL & Hba).
  cbn [gstep]. unfold gassign. rewrite (olook_in _ _ _ H2 Hi), (olook_in _ _ _ H2 Hj). cbn [bind]. rewrite Hv. cbn [bind].
  destruct (assign_copy (gheap s) x (gdims x) true H1 HL ltac:(lia)) as (b' & h2 & h3 & t' & E2 & Et' & E3 & HL3 & Nf & El3 & Hok3 & Eo3 & Hg). rewrite E2. cbn [bind]. rewrite <- Et'. pose proof (in_fst _ _ _ Hi) as Hin.
  rewrite (olook_in (oput i t' (gobj s)) j x); [|now rewrite oput_names|apply oput_in; [exact H2|exact Hin|right; split; [congruence|exact Hj]]]. cbn [bind]. rewrite E3. cbn [bind]. eexists. exists b'. split; [reflexivity|]. cbn [gheap]. split; [rewrite El3; now left|].
  intros k u Hk Ho. unfold object in Hk. cbn [gobj] in Hk. apply oput_in in Hk; [|exact H2|exact Hin]. destruct Hk as [(-> & ->)|(Nk & Hk)]; [destruct Ho; subst t'; discriminate|]. apply Nf. apply H3. now exists k, u.
Qed.
End Objects.
