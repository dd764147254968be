(* Proofs_Keyed.v -- ownership of heap objects by containers. *)
From Coq Require Import Sorted.
From Verif Require Import Base BaseFacts Model_Keyed Spec_Keyed.
Local Open Scope Z_scope.

Lemma mfind_mput {V} k k' (v : V) m : StronglySorted Z.lt (map fst m) -> mfind k' (mput k v m) = if k' =? k then Some v else mfind k' m.
Proof.
  induction m as [|[a u] m IH]; intro S; cbn [mput mfind map fst] in *; [reflexivity|]. inversion S as [|? ? S' F]; subst.
  destruct (k <? a) eqn:E1; [reflexivity|]. destruct (k =? a) eqn:E2; cbn [mfind].
  - apply Z.eqb_eq in E2. subst. destruct (k' =? a); reflexivity.
  - rewrite IH by assumption. destruct (k' =? a) eqn:E3; [|reflexivity]. replace (k' =? k) with false by lia. reflexivity.
Qed.
Lemma mput_keys {V} k (v : V) m a : In a (map fst (mput k v m)) <-> a = k \/ In a (map fst m).
Proof.
  induction m as [|[b u] m IH]; cbn [mput map fst In]; [cbn; intuition|]. destruct (k <? b) eqn:E1; [cbn; intuition|]. destruct (k =? b) eqn:E2; cbn [map fst In].
  - apply Z.eqb_eq in E2. subst. intuition.
  - rewrite IH. intuition.
Qed.
Lemma mput_sorted {V} k (v : V) m : StronglySorted Z.lt (map fst m) -> StronglySorted Z.lt (map fst (mput k v m)).
Proof.
  induction m as [|[a u] m IH]; intro S; cbn [mput map fst] in *; [repeat constructor|]. inversion S as [|? ? S' F]; subst.
  destruct (k <? a) eqn:E1; cbn [map fst].
  - constructor; [assumption|]. constructor; [lia|]. eapply Forall_impl; [|exact F]. cbn. lia.
  - destruct (k =? a) eqn:E2; cbn [map fst]; [apply Z.eqb_eq in E2; subst; now constructor|]. constructor; [now apply IH|].
    apply Forall_forall. intros b Hb. apply mput_keys in Hb as [->|Hb]; [lia|]. rewrite Forall_forall in F. now apply F.
Qed.

Section Own.
Variable O X : Type.
Variable ptrs : X -> list Z.
Notation world := (world O X).
Notation hp := (hp O X). Notation nx := (nx O X). Notation cs := (cs O X).
Notation sound := (sound O ptrs). Notation no_leak := (no_leak O ptrs). Notation owns := (owns O ptrs).

(* addresses at and above nx have never been used *)
Definition good (w : world) : Prop := sound w /\ forall p, hp w p <> None -> p < nx w.
Lemma own_cs w c x p : cs w c = Some x -> owns w c p <-> In p (ptrs x).
Proof. intro E. split; [intros (y & E' & H)|intro H; exists x; now split]. congruence. Qed.

(* an update of one container *)
Lemma owns_set w h n c x : forall d p, owns (W O X h n (put (cs w) c x)) d p <-> (d = c /\ exists y, x = Some y /\ In p (ptrs y)) \/ (d <> c /\ owns w d p).
Proof.
  intros d p. unfold Spec_Keyed.owns, put. cbn [Model_Keyed.cs]. destruct (d =? c) eqn:E.
  - apply Z.eqb_eq in E. subst. split; [intros (y & E & H); left; split; [reflexivity|]; now exists y|]. intros [[_ H]|[H _]]; [exact H|congruence].
  - split; [intros (y & E' & H); right; split; [lia|]; now exists y|]. intros [[H _]|[_ H]]; [lia|exact H].
Qed.
Lemma good_set w h n c x : good w ->
  (forall d p, d <> c -> owns w d p -> h p <> None /\ forall y, x = Some y -> ~ In p (ptrs y)) ->
  (forall y, x = Some y -> NoDup (ptrs y) /\ forall p, In p (ptrs y) -> h p <> None) ->
  (forall p, h p <> None -> p < n) -> good (W O X h n (put (cs w) c x)).
Proof.
  intros [(I1 & I2 & I3) I4] H1 H2 H3. split; [|exact H3]. split; [|split].
  - intros a b p Ha Hb. apply owns_set in Ha as [[-> (y & E & Ha)]|[Na Ha]]; apply owns_set in Hb as [[-> (z & E' & Hb)]|[Nb Hb]]; [reflexivity| | |now apply (I1 a b p)].
    + exfalso. destruct (H1 b p Nb Hb) as [_ K]. now apply (K y).
    + exfalso. destruct (H1 a p Na Ha) as [_ K]. now apply (K z).
  - intros d y E. cbn [Model_Keyed.cs] in E. unfold put in E. destruct (d =? c) eqn:K; [now apply H2|now apply (I2 d)].
  - intros d p H. cbn [Model_Keyed.hp]. apply owns_set in H as [[-> (y & E & H)]|[N H]]; [now apply (H2 y)|now apply (H1 d)].
Qed.

(* adding a new object to a container *)
Lemma good_add w c x x' o : good w -> cs w c = Some x -> (forall p, In p (ptrs x') <-> p = nx w \/ In p (ptrs x)) -> NoDup (ptrs x') ->
  good (W O X (put (hp w) (nx w) (Some o)) (nx w + 1) (put (cs w) c (Some x'))).
Proof.
  intros G E Hp N. pose proof G as [(I1 & I2 & I3) I4]. assert (Al : forall p, hp w p <> None -> put (hp w) (nx w) (Some o) p <> None) by (intros p H; unfold put; destruct (p =? nx w); [discriminate|assumption]).
  apply good_set; [assumption| | |].
  - intros d p D H. split; [apply Al; now apply (I3 d)|]. intros y Ey K. injection Ey as <-. apply Hp in K as [->|K].
    + specialize (I4 _ (I3 d _ H)). lia.
    + apply D. apply (I1 d c p H). now exists x.
  - intros y Ey. injection Ey as <-. split; [assumption|]. intros p H. apply Hp in H as [->|H]; [unfold put; rewrite Z.eqb_refl; discriminate|]. apply Al. apply (I3 c). now exists x.
  - intros p H. unfold put in H. destruct (p =? nx w) eqn:K; [lia|]. specialize (I4 _ H). lia.
Qed.
Lemma leak_add w c x x' o : no_leak w -> cs w c = Some x -> (forall p, In p (ptrs x') <-> p = nx w \/ In p (ptrs x)) ->
  no_leak (W O X (put (hp w) (nx w) (Some o)) (nx w + 1) (put (cs w) c (Some x'))).
Proof.
  intros L E Hp p H. cbn [Model_Keyed.hp] in H. unfold put in H. destruct (p =? nx w) eqn:K.
  - exists c. apply owns_set. left. split; [reflexivity|]. exists x'. split; [reflexivity|]. apply Hp. lia.
  - destruct (L p H) as [d D]. exists d. apply owns_set. destruct (Z.eq_dec d c) as [->|Ne]; [left|right; now split]. split; [reflexivity|]. exists x'. split; [reflexivity|]. apply Hp. right. now apply (own_cs w c x).
Qed.
(* a container changes without changing what it owns *)
Lemma good_same w c x x' : good w -> cs w c = Some x -> ptrs x' = ptrs x -> good (W O X (hp w) (nx w) (put (cs w) c (Some x'))).
Proof.
  intros G E Ep. pose proof G as [(I1 & I2 & I3) I4]. apply good_set; [assumption| | |assumption].
  - intros d p D H. split; [now apply (I3 d)|]. intros y Ey K. injection Ey as <-. rewrite Ep in K. apply D, (I1 d c p H). now exists x.
  - intros y Ey. injection Ey as <-. rewrite Ep. split; [now apply (I2 c)|]. intros p H. apply (I3 c). now exists x.
Qed.
Lemma leak_same w c x x' : no_leak w -> cs w c = Some x -> ptrs x' = ptrs x -> no_leak (W O X (hp w) (nx w) (put (cs w) c (Some x'))).
Proof.
  intros L E Ep p H. destruct (L p H) as [d D]. exists d. apply owns_set. destruct (Z.eq_dec d c) as [->|Ne]; [left|right; now split]. split; [reflexivity|]. exists x'. split; [reflexivity|]. rewrite Ep. now apply (own_cs w c x).
Qed.
(* a new, empty container *)
Lemma good_new w c e : good w -> cs w c = None -> ptrs e = [] -> good (W O X (hp w) (nx w) (put (cs w) c (Some e))).
Proof.
  intros G E Ep. pose proof G as [(I1 & I2 & I3) I4]. apply good_set; [assumption| | |assumption].
  - intros d p D H. split; [now apply (I3 d)|]. intros y Ey K. injection Ey as <-. rewrite Ep in K. destruct K.
  - intros y Ey. injection Ey as <-. rewrite Ep. split; [constructor|]. intros p [].
Qed.
Lemma leak_new w c e : no_leak w -> cs w c = None -> no_leak (W O X (hp w) (nx w) (put (cs w) c (Some e))).
Proof.
  intros L E p H. destruct (L p H) as [d D]. exists d. apply owns_set. right. split; [|assumption]. intros ->. destruct D as (x & D & _). congruence.
Qed.
(* forgetting what a container holds *)
Lemma good_forget w c e : good w -> ptrs e = [] -> good (W O X (hp w) (nx w) (put (cs w) c (Some e))).
Proof.
  intros G Ep. pose proof G as [(I1 & I2 & I3) I4]. apply good_set; [assumption| | |assumption].
  - intros d p D H. split; [now apply (I3 d)|]. intros y Ey K. injection Ey as <-. rewrite Ep in K. destruct K.
  - intros y Ey. injection Ey as <-. rewrite Ep. split; [constructor|]. intros p [].
Qed.
(* moving *)
Lemma move_set w c d y e : cs w d = Some y -> ptrs e = [] -> (forall x, c <> d -> cs w c = Some x -> ptrs x = []) -> good w -> c <> d ->
  good (W O X (hp w) (nx w) (put (put (cs w) c (Some y)) d (Some e))) /\
  (no_leak w -> no_leak (W O X (hp w) (nx w) (put (put (cs w) c (Some y)) d (Some e)))).
Proof.
  intros Ed Ee Ec G Ne. pose proof G as [(I1 & I2 & I3) I4].
  assert (Ow : forall b p, owns (W O X (hp w) (nx w) (put (put (cs w) c (Some y)) d (Some e))) b p <-> (b = c /\ In p (ptrs y)) \/ (b <> c /\ b <> d /\ owns w b p)).
  { intros b p. split.
    - intros (x & E & H). cbn [Model_Keyed.cs] in E. unfold put in E. destruct (b =? d) eqn:K1; [injection E as <-; rewrite Ee in H; destruct H|]. destruct (b =? c) eqn:K2.
      + injection E as <-. left. split; [lia|assumption].
      + right. split; [lia|]. split; [lia|]. now exists x.
    - intros [[-> H]|(K1 & K2 & x & E & H)].
      + exists y. cbn [Model_Keyed.cs]. unfold put. replace (c =? d) with false by lia. rewrite Z.eqb_refl. now split.
      + exists x. cbn [Model_Keyed.cs]. unfold put. replace (b =? d) with false by lia. replace (b =? c) with false by lia. now split. }
  assert (Od : forall p, In p (ptrs y) -> owns w d p) by (intros p H; now exists y).
  split.
  - split; [|exact I4]. split; [|split].
    + intros a b p Ha Hb. apply Ow in Ha as [[-> Ha]|(Na & Na' & Ha)]; apply Ow in Hb as [[-> Hb]|(Nb & Nb' & Hb)]; [reflexivity| | |now apply (I1 a b p)].
      * exfalso. apply Nb'. apply (I1 b d p Hb). now apply Od.
      * exfalso. apply Na'. apply (I1 a d p Ha). now apply Od.
    + intros b x E. cbn [Model_Keyed.cs] in E. unfold put in E. destruct (b =? d); [injection E as <-; rewrite Ee; constructor|]. destruct (b =? c); [injection E as <-; now apply (I2 d)|now apply (I2 b)].
    + intros b p H. cbn [Model_Keyed.hp]. apply Ow in H as [[-> H]|(_ & _ & H)]; [apply (I3 d); now apply Od|now apply (I3 b)].
  - intros L p H. cbn [Model_Keyed.hp] in H. destruct (L p H) as [b B]. destruct (Z.eq_dec b d) as [->|Nd].
    + exists c. apply Ow. left. split; [reflexivity|]. now apply (own_cs w d y).
    + exists b. apply Ow. right. split; [|now split]. intros ->. destruct B as (x & E & B). rewrite (Ec x Ne E) in B. destruct B.
Qed.

(* deleting everything a container owns *)
Lemma del_all ps : forall w, NoDup ps -> (forall p, In p ps -> hp w p <> None) ->
  exists h, foldM (del O (X := X)) ps w = Ok (W O X h (nx w) (cs w)) /\ forall p, (In p ps -> h p = None) /\ (~ In p ps -> h p = hp w p).
Proof.
  induction ps as [|q ps IH]; intros w N A; cbn [foldM].
  - exists (hp w). split; [destruct w; reflexivity|]. intro p. split; [intros []|reflexivity].
  - inversion N; subst. unfold del at 1, deref. destruct (hp w q) eqn:E; [|exfalso; apply (A q); [now left|assumption]]. cbn [bind].
    destruct (IH (W O X (put (hp w) q None) (nx w) (cs w)) H2) as (h & Eh & Hh).
    { intros p Hp. cbn [Model_Keyed.hp]. unfold put. destruct (p =? q) eqn:K; [apply Z.eqb_eq in K; subst; contradiction|]. apply A. now right. }
    exists h. split; [exact Eh|]. cbn [Model_Keyed.hp] in Hh. unfold put in Hh. intro p. destruct (Hh p) as [H3 H4]. split.
    + intros [<-|Hp]; [|now apply H3]. rewrite H4 by assumption. now rewrite Z.eqb_refl.
    + intro Np. rewrite H4 by (intro; apply Np; now right). replace (p =? q) with false; [reflexivity|]. symmetry. apply Z.eqb_neq. intros ->. apply Np. now left.
Qed.
Lemma good_freed w h c x e : good w -> cs w c = Some x -> (forall p, (In p (ptrs x) -> h p = None) /\ (~ In p (ptrs x) -> h p = hp w p)) -> (forall y, e = Some y -> ptrs y = []) ->
  good (W O X h (nx w) (put (cs w) c e)) /\ (no_leak w -> no_leak (W O X h (nx w) (put (cs w) c e))).
Proof.
  intros G E Hh Ee. pose proof G as [(I1 & I2 & I3) I4]. split.
  - apply good_set; [assumption| | |].
    + intros d p D H. assert (Np : ~ In p (ptrs x)) by (intro K; apply D, (I1 d c p H); now exists x). split; [rewrite (proj2 (Hh p) Np); now apply (I3 d)|].
      intros y Ey K. rewrite (Ee y Ey) in K. destruct K.
    + intros y Ey. rewrite (Ee y Ey). split; [constructor|]. intros p [].
    + intros p H. destruct (in_dec Z.eq_dec p (ptrs x)) as [K|K]; [now rewrite (proj1 (Hh p) K) in H|]. rewrite (proj2 (Hh p) K) in H. now apply I4.
  - intros L p H. cbn [Model_Keyed.hp] in H. destruct (in_dec Z.eq_dec p (ptrs x)) as [K|K]; [now rewrite (proj1 (Hh p) K) in H|]. rewrite (proj2 (Hh p) K) in H.
    destruct (L p H) as [d D]. exists d. apply owns_set. right. split; [|assumption]. intros ->. apply K. now apply (own_cs w c x).
Qed.
End Own.
