(* Proofs_View.v -- lemmas for C07-C12 *)
From Verif Require Import Base BaseFacts Model_Index Spec_Index Proofs_Index Model_View Spec_View.
Local Open Scope Z_scope.

(* ---- positions ---- *)
Lemma ins_app d x l : (d <= length l)%nat -> firstn d l ++ x :: skipn d l = ins d x l.
Proof.
  revert l; induction d as [|d IH]; intros l H; [destruct l; reflexivity|].
  destruct l as [|a l]; [cbn in H; lia|]. cbn. f_equal. apply IH. cbn in H; lia.
Qed.
Lemma del_app d l : (d < length l)%nat -> firstn d l ++ skipn (S d) l = del d l.
Proof.
  revert l; induction d as [|d IH]; intros l H; destruct l as [|a l]; try (cbn in H; lia); [reflexivity|].
  cbn. f_equal. apply IH. cbn in H; lia.
Qed.
Lemma ins_length d x l : (d <= length l)%nat -> length (ins d x l) = S (length l).
Proof.
  revert l; induction d as [|d IH]; intros l H; [reflexivity|].
  destruct l as [|a l]; [cbn in H; lia|]. cbn. f_equal. apply IH. cbn in H; lia.
Qed.
Lemma del_length d l : (d < length l)%nat -> length (del d l) = pred (length l).
Proof.
  revert l; induction d as [|d IH]; intros l H; destruct l as [|a l]; try (cbn in H; lia); [reflexivity|].
  cbn [del length]. rewrite IH by (cbn in H; lia). cbn in *. lia.
Qed.
Lemma set_nth_length {A} d (x : A) l : length (set_nth d x l) = length l.
Proof. revert d; induction l as [|a l IH]; intros [|d]; cbn; auto. Qed.
Lemma nth_set_nth (l : list Z) d k x : (d < length l)%nat ->
  nth k (set_nth d x l) 0 = if (k =? d)%nat then x else nth k l 0.
Proof.
  revert d k; induction l as [|a l IH]; intros d k H; [cbn in H; lia|].
  destruct d as [|d], k as [|k]; cbn; try reflexivity. rewrite IH by (cbn in H; lia). reflexivity.
Qed.
Lemma set_nth_id (l : list Z) d : set_nth d (nth d l 0) l = l.
Proof. revert d; induction l as [|a l IH]; intros [|d]; cbn; auto. f_equal. apply IH. Qed.

Lemma zget_inv {A} (l : list A) i x : zget l i = Ok x ->
  0 <= i < Z.of_nat (length l) /\ nth_error l (Z.to_nat i) = Some x.
Proof.
  unfold zget, vget. destruct (i <? 0) eqn:E; [discriminate|].
  destruct (nth_error l (Z.to_nat i)) eqn:En; [|discriminate].
  intro H; injection H as <-. split; [|reflexivity].
  assert (Z.to_nat i < length l)%nat by (apply nth_error_Some; congruence). lia.
Qed.
Lemma zget_nth (l : list Z) i x : zget l i = Ok x ->
  0 <= i < Z.of_nat (length l) /\ nth (Z.to_nat i) l 0 = x.
Proof. intro H. apply zget_inv in H as [H1 H2]. split; [assumption|]. now apply nth_error_nth. Qed.
Lemma zget_nth_ok (l : list Z) i : 0 <= i < Z.of_nat (length l) -> zget l i = Ok (nth (Z.to_nat i) l 0).
Proof.
  intro H. destruct (zget_ok l i H) as (x & Hx & En). rewrite Hx. f_equal. symmetry. now apply nth_error_nth.
Qed.
Lemma vset_inv i x l l' : vset i x l = Ok l' ->
  0 <= i < Z.of_nat (length l) /\ l' = set_nth (Z.to_nat i) x l.
Proof. unfold vset. destruct (_ || _) eqn:E; [discriminate|]. intro H; injection H as <-. split; [lia|reflexivity]. Qed.
Lemma vset_ok i x l : 0 <= i < Z.of_nat (length l) -> vset i x l = Ok (set_nth (Z.to_nat i) x l).
Proof. intro H. unfold vset. ifF. reflexivity. Qed.
Lemma vremove_inv (j : Z) (l l' : list Z) : vremove j l = Ok l' ->
  0 <= j < Z.of_nat (length l) /\ l' = del (Z.to_nat j) l.
Proof.
  unfold vremove, assrt. destruct (_ && _) eqn:E; [|discriminate]. intro H. injection H as <-.
  split; [lia|]. apply del_app. lia.
Qed.
Lemma vremove_ok' (j : Z) (l : list Z) : 0 <= j < Z.of_nat (length l) -> vremove j l = Ok (del (Z.to_nat j) l).
Proof. intro H. rewrite remove_ok by assumption. f_equal. apply del_app. lia. Qed.
Lemma vinsert_inv (j x : Z) (l l' : list Z) : vinsert j x l = Ok l' ->
  0 <= j <= Z.of_nat (length l) /\ l' = ins (Z.to_nat j) x l.
Proof.
  unfold vinsert. destruct (_ || _) eqn:E; [discriminate|]. intro H. injection H as <-.
  split; [lia|]. apply ins_app. lia.
Qed.
Lemma vinsert_ok' (j x : Z) (l : list Z) : 0 <= j <= Z.of_nat (length l) ->
  vinsert j x l = Ok (ins (Z.to_nat j) x l).
Proof. intro H. rewrite insert_ok by assumption. f_equal. apply ins_app. lia. Qed.

(* ---- dot ---- *)
Lemma dot_app s1 s2 i1 i2 : length s1 = length i1 -> dot (s1 ++ s2) (i1 ++ i2) = dot s1 i1 + dot s2 i2.
Proof.
  revert i1; induction s1 as [|s s1 IH]; intros [|i i1] L; try discriminate; [reflexivity|].
  cbn. rewrite IH by (now injection L). ring.
Qed.
Lemma dot_ins_r d s i ix : (d < length s)%nat -> length s = S (length ix) ->
  dot s (ins d i ix) = nth d s 0 * i + dot (del d s) ix.
Proof.
  revert s ix; induction d as [|d IH]; intros s ix H L; destruct s as [|s0 s]; try (cbn in H; lia).
  - reflexivity.
  - destruct ix as [|i0 ix]; [cbn in *; lia|]. cbn. rewrite IH by (cbn in *; lia). ring.
Qed.
Lemma dot_ins_l d s str ix : (d < length ix)%nat -> length ix = S (length str) ->
  dot (ins d s str) ix = s * nth d ix 0 + dot str (del d ix).
Proof.
  revert str ix; induction d as [|d IH]; intros s0 ix H L; destruct ix as [|i0 ix]; try (cbn in H; lia).
  - reflexivity.
  - destruct s0 as [|s1 s0]; [cbn in *; lia|]. cbn. rewrite IH by (cbn in *; lia). ring.
Qed.
Lemma dot_set_r d s x ix : length s = length ix -> (d < length ix)%nat ->
  dot s (set_nth d x ix) = dot s ix + nth d s 0 * (x - nth d ix 0).
Proof.
  revert s ix; induction d as [|d IH]; intros s ix L H; destruct ix as [|i0 ix]; try (cbn in H; lia);
    destruct s as [|s0 s]; try discriminate; cbn.
  - ring.
  - rewrite IH by (cbn in *; lia). ring.
Qed.
Lemma dot_set_l d s x ix : length s = length ix -> (d < length ix)%nat ->
  dot (set_nth d x s) ix = dot s ix + (x - nth d s 0) * nth d ix 0.
Proof.
  revert s ix; induction d as [|d IH]; intros s ix L H; destruct ix as [|i0 ix]; try (cbn in H; lia);
    destruct s as [|s0 s]; try discriminate; cbn.
  - ring.
  - rewrite IH by (cbn in *; lia). ring.
Qed.
Lemma dot_add s x y : length x = length y -> dot s (zipadd x y) = dot s x + dot s y.
Proof.
  revert s y; induction x as [|a x IH]; intros s [|b y] L; try discriminate; [now destruct s; cbn|].
  destruct s as [|s0 s]; [reflexivity|]. cbn. rewrite IH by (now injection L). ring.
Qed.

(* ---- in_range ---- *)
Lemma in_range_nth ix dims : in_range ix dims <->
  length ix = length dims /\ forall k, (k < length dims)%nat -> 0 <= nth k ix 0 < nth k dims 0.
Proof.
  split.
  - induction 1 as [|i d ix dims Hi Hx IH]; [split; [reflexivity|cbn; lia]|].
    destruct IH as [L IH]. split; [cbn; lia|]. intros [|k] Hk; cbn; [assumption|]. apply IH. cbn in Hk; lia.
  - intros [L H]. revert dims L H; induction ix as [|i ix IH]; intros [|d dims] L H; try discriminate; constructor.
    + apply (H 0%nat). cbn; lia.
    + apply IH; [now injection L|]. intros k Hk. apply (H (S k)). cbn; lia.
Qed.
Lemma in_range_ins d i n ix dims : (d <= length dims)%nat -> in_range ix dims -> 0 <= i < n ->
  in_range (ins d i ix) (ins d n dims).
Proof.
  intros H Hr Hi; revert d H. induction Hr as [|i0 d0 ix dims H0 Hr IH]; intros d H.
  - destruct d; [|cbn in H; lia]. repeat constructor; assumption || lia.
  - destruct d as [|d]; cbn.
    + constructor; [assumption|]. now constructor.
    + constructor; [assumption|]. apply IH. cbn in H; lia.
Qed.
Lemma in_range_del d ix dims : in_range ix dims -> in_range (del d ix) (del d dims).
Proof.
  intros H; revert d; induction H as [|i0 d0 ix dims H0 Hr IH]; intros [|d]; cbn; try constructor;
    [assumption..|apply IH].
Qed.
Lemma ins_del d l : (d < length l)%nat -> ins d (nth d l 0) (del d l) = l.
Proof.
  revert l; induction d as [|d IH]; intros [|a l] H; try (cbn in H; lia); [reflexivity|].
  cbn. f_equal. apply IH. cbn in H; lia.
Qed.
Lemma del_ins d x l : (d <= length l)%nat -> del d (ins d x l) = l.
Proof.
  revert l; induction d as [|d IH]; intros l H; [reflexivity|].
  destruct l as [|a l]; [cbn in H; lia|]. cbn. f_equal. apply IH. cbn in H; lia.
Qed.
Lemma nth_ins d x l : (d <= length l)%nat -> nth d (ins d x l) 0 = x.
Proof.
  revert l; induction d as [|d IH]; intros l H; [reflexivity|].
  destruct l as [|a l]; [cbn in H; lia|]. cbn. apply IH. cbn in H; lia.
Qed.
Lemma ins_inj d x y l m : length l = length m -> (d <= length l)%nat ->
  ins d x l = ins d y m -> x = y /\ l = m.
Proof.
  intros L H E. split.
  - rewrite <- (nth_ins d x l), E, nth_ins by lia. reflexivity.
  - rewrite <- (del_ins d x l), E, del_ins by lia. reflexivity.
Qed.
Lemma in_range_ins_del d i ix dims : (d < length dims)%nat -> in_range ix (del d dims) ->
  0 <= i < nth d dims 0 -> in_range (ins d i ix) dims.
Proof.
  intros H Hr Hi. rewrite <- (ins_del d dims H). apply in_range_ins; auto.
  rewrite del_length by assumption. lia.
Qed.
Lemma in_range_ins_inv d n ix dims : (d <= length dims)%nat -> in_range ix (ins d n dims) ->
  in_range (del d ix) dims /\ 0 <= nth d ix 0 < n.
Proof.
  intros H Hr. split.
  - apply (in_range_del d) in Hr. now rewrite del_ins in Hr.
  - apply in_range_nth in Hr as [L Hk]. specialize (Hk d). rewrite nth_ins, ins_length in Hk by assumption.
    apply Hk. lia.
Qed.
Lemma in_range_set d i n ix dims : in_range ix dims -> 0 <= i < n -> in_range (set_nth d i ix) (set_nth d n dims).
Proof.
  intros H; revert d; induction H as [|i0 d0 ix dims H0 Hr IH]; intros [|d] Hi; cbn; constructor; auto.
  now apply IH.
Qed.
Lemma in_range_set_inv d n ix dims : (d < length dims)%nat -> in_range ix (set_nth d n dims) ->
  0 <= nth d ix 0 < n /\ forall i, 0 <= i < nth d dims 0 -> in_range (set_nth d i ix) dims.
Proof.
  intros H Hr. apply in_range_nth in Hr as [L Hk]. rewrite set_nth_length in L.
  split.
  - specialize (Hk d). rewrite set_nth_length in Hk. specialize (Hk H).
    rewrite nth_set_nth, Nat.eqb_refl in Hk by assumption. exact Hk.
  - intros i Hi. apply in_range_nth. rewrite set_nth_length. split; [assumption|].
    intros k Hkl. rewrite nth_set_nth by lia. destruct (k =? d)%nat eqn:E.
    + apply Nat.eqb_eq in E; subst; assumption.
    + specialize (Hk k). rewrite set_nth_length in Hk. specialize (Hk Hkl).
      rewrite nth_set_nth, E in Hk by assumption. exact Hk.
Qed.
Lemma zipadd_length x y : length x = length y -> length (zipadd x y) = length x.
Proof.
  revert y; induction x as [|a x IH]; intros [|b y] L; try discriminate; [reflexivity|].
  cbn. f_equal. apply IH. now injection L.
Qed.
Lemma gindex_le_spec x y : gindex_le x y = true <-> Forall2 Z.le x y.
Proof.
  revert y; induction x as [|a x IH]; intros [|b y]; cbn; split; intro H; try discriminate; try constructor.
  - inversion H.
  - inversion H.
  - lia.
  - apply IH. now apply andb_prop in H as [_ H].
  - inversion H; subst. apply andb_true_intro; split; [lia|now apply IH].
Qed.
Lemma in_range_shift off d dims ix : nonneg off -> length off = length d ->
  Forall2 Z.le (zipadd off d) dims -> in_range ix d -> in_range (zipadd off ix) dims.
Proof.
  intros Ho; revert d dims ix; induction Ho as [|o off Ho Hn IH]; intros [|d0 d] dims ix L Hle Hr;
    try discriminate; inversion Hr; subst; cbn in *; inversion Hle; subst; constructor.
  - lia.
  - eapply IH; [|eassumption|assumption]. lia.
Qed.

(* ---- vaddr ---- *)
Lemma vaddr_ok v ix : length ix = length (vstr v) ->
  vaddr v ix = Ok (vblk v, voff v + dot (vstr v) ix).
Proof. intro L. unfold vaddr. rewrite offs_dot by assumption. reflexivity. Qed.
Lemma vaddr_in_range v ix : vwf v -> in_range ix (vdims v) ->
  vaddr v ix = Ok (vblk v, voff v + dot (vstr v) ix).
Proof. intros [L _] H. apply vaddr_ok. rewrite L. now apply in_range_length. Qed.

(* ---- swap_last2 ---- *)
Lemma swap_last2_app {A} (p : list A) a b : swap_last2 (p ++ [a; b]) = p ++ [b; a].
Proof.
  induction p as [|x p IH]; [reflexivity|]. cbn. rewrite IH.
  destruct p as [|y p]; [reflexivity|]. destruct p; reflexivity.
Qed.
Lemma last2_split {A} (l : list A) : (2 <= length l)%nat -> exists p a b, l = p ++ [a; b].
Proof.
  intro H. destruct (exists_last (l := l)) as (l1 & b & ->); [destruct l; cbn in H; [lia|discriminate]|].
  rewrite app_length in H. cbn in H.
  destruct (exists_last (l := l1)) as (p & a & ->); [destruct l1; cbn in H; [lia|discriminate]|].
  exists p, a, b. now rewrite <- app_assoc.
Qed.

Lemma C07_transp_l v : vwf v -> (2 <= length (vdims v))%nat ->
  exists v', transp v = Ok v' /\ transp v' = Ok v /\ vblk v' = vblk v /\
    (forall p m n, vdims v = p ++ [m; n] -> vdims v' = p ++ [n; m]) /\
    (forall p i j, length (p ++ [i; j]) = length (vdims v) -> vaddr v' (p ++ [i; j]) = vaddr v (p ++ [j; i])).
Proof.
  intros [L Hn] H2.
  destruct (last2_split (vdims v) H2) as (pd & m & n & Ed).
  destruct (last2_split (vstr v)) as (ps & s & t & Es); [lia|].
  exists (View (vblk v) (voff v) (pd ++ [n; m]) (ps ++ [t; s])).
  assert (Lp : length ps = length pd).
  { rewrite Ed, Es, !app_length in L. cbn in L. lia. }
  unfold transp, ndims, dims_transp, strides_transp. cbn [vdims vstr vblk voff].
  rewrite Ed, Es.
  assert (E1 : forall (q : list Z) a b, (2 <=? length (q ++ [a; b]))%nat = true)
    by (intros; rewrite app_length; apply Nat.leb_le; cbn; lia).
  assert (E2 : forall (q : list Z) a b, (length (q ++ [a; b]) <? 2)%nat = false)
    by (intros; rewrite app_length; apply Nat.ltb_ge; cbn; lia).
  assert (E3 : forall (q : list Z) a b, 2 <=? Z.of_nat (length (q ++ [a; b])) = true)
    by (intros; rewrite app_length; cbn; lia).
  rewrite !E1, !E2, !E3. cbn. rewrite !swap_last2_app.
  split; [reflexivity|]. split; [f_equal; destruct v; cbn in *; congruence|]. split; [reflexivity|]. split.
  - intros p m' n' E.
    assert (p = pd /\ [m; n] = [m'; n']) as [-> E'].
    { assert (length p = length pd) by (apply (f_equal (@length Z)) in E; rewrite !app_length in E; cbn in E; lia).
      clear -E H. revert pd E H; induction p as [|a p IH]; intros [|b pd] E H; try discriminate; [auto|].
      cbn in *. injection E as -> E. destruct (IH pd E) as [-> ?]; [lia|]. auto. }
    injection E' as -> ->. reflexivity.
  - intros p i j Lij. rewrite app_length in Lij. cbn in Lij.
    rewrite Ed, app_length in L. cbn in L. rewrite app_length in Lij; cbn in Lij.
    rewrite !vaddr_ok; cbn; rewrite ?Es, ?app_length in *; cbn; try lia.
    rewrite !dot_app by lia. cbn. do 2 f_equal. ring.
Qed.

(* ---- generic machinery for embeddings ---- *)
Definition inj_on (v : view) (f : list Z -> list Z) : Prop :=
  forall ix jx, in_range ix (vdims v) -> in_range jx (vdims v) -> f ix = f jx -> ix = jx.

Lemma shows_intro v v' f : vwf v -> length (vstr v') = length (vdims v') -> vblk v' = vblk v ->
  (forall ix, in_range ix (vdims v') ->
     in_range (f ix) (vdims v) /\ voff v' + dot (vstr v') ix = voff v + dot (vstr v) (f ix)) ->
  shows v' v f.
Proof.
  intros Hw L Hb H ix Hr. destruct (H ix Hr) as [H1 H2]. split; [assumption|].
  rewrite (vaddr_in_range v) by assumption.
  rewrite vaddr_ok by (rewrite L; now apply in_range_length). rewrite Hb, H2. reflexivity.
Qed.

Lemma nonneg_set d n dims : nonneg dims -> 0 <= n -> nonneg (set_nth d n dims).
Proof.
  intros H Hn; revert d; induction H as [|x l Hx Hl IH]; intros [|d]; cbn; constructor; auto. apply IH.
Qed.
Lemma nonneg_ins d n dims : nonneg dims -> 0 <= n -> nonneg (ins d n dims).
Proof.
  intros H Hn; revert d; induction H as [|x l Hx Hl IH]; intros [|d]; cbn; repeat constructor; auto. apply IH.
Qed.
Lemma nonneg_del d dims : nonneg dims -> nonneg (del d dims).
Proof.
  intros H; revert d; induction H as [|x l Hx Hl IH]; intros [|d]; cbn; try constructor; auto. apply IH.
Qed.
Lemma nonneg_nth d dims : nonneg dims -> 0 <= nth d dims 0.
Proof.
  intro H; revert d; induction H as [|x l Hx Hl IH]; intros [|d]; cbn; try lia; try assumption.
Qed.
Lemma nonneg_nth_iff dims : (forall k, 0 <= nth k dims 0) -> nonneg dims.
Proof.
  intro H. apply Forall_forall. intros x Hx. apply (In_nth _ _ 0) in Hx as (k & _ & <-). apply H.
Qed.

(* transp *)
Lemma transp_embeds v v' : vwf v -> transp v = Ok v' ->
  vwf v' /\ shows v' v swap_last2 /\ inj_on v' swap_last2.
Proof.
  intros Hw E.
  assert (H2 : (2 <= length (vdims v))%nat).
  { unfold transp, ndims, assrt in E. destruct (2 <=? Z.of_nat (length (vdims v))) eqn:E2; [lia|discriminate]. }
  destruct (C07_transp_l v Hw H2) as (w & Ew & Eb & Hb & Hd & Ha). rewrite E in Ew. injection Ew as <-.
  destruct Hw as [L Hn]. destruct (last2_split (vdims v) H2) as (p & m & n & Ed).
  pose proof (Hd p m n Ed) as Ed'.
  assert (Lv' : length (vstr v') = length (vdims v')).
  { unfold transp in E. unfold assrt at 1 in E. destruct (2 <=? ndims v); [|discriminate].
    apply bind_ok in E as (d' & E1 & E). apply bind_ok in E as (s' & E2 & E). injection E as <-. cbn.
    unfold dims_transp, strides_transp, assrt in E1, E2.
    destruct (length (vdims v) <? 2)%nat; [discriminate|]. injection E1 as <-.
    destruct (2 <=? length (vstr v))%nat; [|discriminate]. injection E2 as <-.
    assert (Hlen : forall l : list Z, length (swap_last2 l) = length l).
    { induction l as [|a [|b [|c l]] IH]; try reflexivity.
      change (swap_last2 (a :: b :: c :: l)) with (a :: swap_last2 (b :: c :: l)).
      cbn [length]. f_equal. exact IH. }
    now rewrite !Hlen. }
  split; [|split].
  - split; [assumption|]. rewrite Ed'. unfold nonneg in *. rewrite Ed in Hn.
    apply Forall_app in Hn as [Hp Hmn]. apply Forall_app. split; [assumption|].
    inversion Hmn as [|? ? H1 H3]; subst. inversion H3; subst. repeat constructor; assumption.
  - intros ix Hr. rewrite Ed' in Hr. unfold in_range in Hr.
    apply Forall2_app_inv_r in Hr as (q & r & Hq & Hrr & ->).
    inversion Hrr as [|i ? r1 ? Hi Hr1]; subst. inversion Hr1 as [|j ? r2 ? Hj Hr2]; subst. inversion Hr2; subst.
    rewrite swap_last2_app. split.
    + rewrite Ed. apply Forall2_app; [assumption|]. repeat constructor; lia.
    + apply Ha. rewrite Ed, !app_length. cbn. apply in_range_length in Hq. lia.
  - intros ix jx Hi Hj E2.
    assert (G : forall l : list Z, (2 <= length l)%nat -> swap_last2 (swap_last2 l) = l).
    { intros l Hl. destruct (last2_split l Hl) as (q & a & b & ->). now rewrite !swap_last2_app. }
    assert (Hlen : length (vdims v') = length (vdims v)) by (rewrite Ed, Ed', !app_length; reflexivity).
    apply in_range_length in Hi. apply in_range_length in Hj.
    rewrite <- (G ix), <- (G jx) by lia. now rewrite E2.
Qed.

(* transp(a,b) *)
Definition swapn (a b : nat) (l : list Z) : list Z :=
  set_nth b (nth a l 0) (set_nth a (nth b l 0) l).
Lemma nth_swapn a b k l : (a < length l)%nat -> (b < length l)%nat ->
  nth k (swapn a b l) 0 = if (k =? b)%nat then nth a l 0 else if (k =? a)%nat then nth b l 0 else nth k l 0.
Proof.
  intros Ha Hb. unfold swapn. rewrite nth_set_nth by (rewrite set_nth_length; assumption).
  destruct (k =? b)%nat; [reflexivity|]. now rewrite nth_set_nth.
Qed.
Lemma swapn_length a b l : length (swapn a b l) = length l.
Proof. unfold swapn. now rewrite !set_nth_length. Qed.
Lemma list_nth0_ext (l m : list Z) : length l = length m -> (forall k, (k < length l)%nat -> nth k l 0 = nth k m 0) -> l = m.
Proof. intros L H. apply nth_ext with (d := 0) (d' := 0); assumption. Qed.
Lemma swapn_invol a b l : (a < length l)%nat -> (b < length l)%nat -> swapn a b (swapn a b l) = l.
Proof.
  intros Ha Hb. apply list_nth0_ext; [now rewrite !swapn_length|]. intros k Hk.
  rewrite !nth_swapn by (rewrite ?swapn_length; assumption).
  destruct (k =? b)%nat eqn:E1, (k =? a)%nat eqn:E2, (a =? b)%nat eqn:E3;
    rewrite ?Nat.eqb_eq, ?Nat.eqb_neq, ?Nat.eqb_refl in *; subst; try lia; try reflexivity;
    rewrite ?Nat.eqb_refl; try reflexivity;
    destruct (b =? a)%nat eqn:E4; rewrite ?Nat.eqb_eq in *; subst; try lia; reflexivity.
Qed.
Lemma dot_swapn a b s l : length s = length l -> (a < length l)%nat -> (b < length l)%nat ->
  dot (swapn a b s) (swapn a b l) = dot s l.
Proof.
  intros L Ha Hb. unfold swapn. destruct (Nat.eq_dec a b) as [->|Hne].
  - assert (G : forall m : list Z, (b < length m)%nat -> set_nth b (nth b m 0) (set_nth b (nth b m 0) m) = m).
    { intros m Hm. now rewrite !set_nth_id. }
    rewrite !G by lia. reflexivity.
  - rewrite dot_set_l, dot_set_l by (rewrite ?set_nth_length; lia).
    rewrite !dot_set_r by (rewrite ?set_nth_length; lia).
    rewrite !nth_set_nth by (rewrite ?set_nth_length; lia).
    rewrite Nat.eqb_refl. replace (a =? b)%nat with false by (symmetry; now apply Nat.eqb_neq).
    replace (b =? a)%nat with false by (symmetry; apply Nat.eqb_neq; lia). rewrite ?Nat.eqb_refl. ring.
Qed.

Lemma transp_ab_inv a b v v' : vwf v -> transp_ab a b v = Ok v' ->
  0 <= a < ndims v /\ 0 <= b < ndims v /\
  v' = View (vblk v) (voff v) (swapn (Z.to_nat a) (Z.to_nat b) (vdims v)) (swapn (Z.to_nat a) (Z.to_nat b) (vstr v)).
Proof.
  intros [L Hn] E. unfold transp_ab, assrt in E.
  destruct (a <? ndims v) eqn:Ea; [|discriminate]. destruct (b <? ndims v) eqn:Eb; [|discriminate].
  repeat (apply bind_ok in E as (? & ?E & E)).
  repeat match goal with H : zget _ _ = Ok _ |- _ => apply zget_nth in H as [? ?]
         | H : vset _ _ _ = Ok _ |- _ => apply vset_inv in H as [? ->] end.
  subst. injection E as <-. unfold swapn, ndims in *. split; [lia|]. split; [lia|reflexivity].
Qed.
Lemma transp_ab_ok a b v : vwf v -> 0 <= a < ndims v -> 0 <= b < ndims v ->
  transp_ab a b v = Ok (View (vblk v) (voff v) (swapn (Z.to_nat a) (Z.to_nat b) (vdims v)) (swapn (Z.to_nat a) (Z.to_nat b) (vstr v))).
Proof.
  intros [L Hn] Ha Hb. unfold transp_ab, assrt. do 2 ifT. unfold ndims in *.
  rewrite !zget_nth_ok by (rewrite ?L; lia). cbn [bind].
  rewrite (vset_ok a) by (rewrite ?L; lia). cbn [bind].
  rewrite (vset_ok b) by (rewrite set_nth_length, ?L; lia). cbn [bind].
  rewrite (vset_ok a) by (rewrite ?L; lia). cbn [bind].
  rewrite (vset_ok b) by (rewrite set_nth_length, ?L; lia). reflexivity.
Qed.
Lemma in_range_swapn a b ix dims : (a < length dims)%nat -> (b < length dims)%nat ->
  in_range ix dims -> in_range (swapn a b ix) (swapn a b dims).
Proof.
  intros Ha Hb H. apply in_range_nth in H as [L H]. apply in_range_nth. rewrite !swapn_length.
  split; [assumption|]. intros k Hk. rewrite !nth_swapn by lia.
  destruct (k =? b)%nat; [now apply H|]. destruct (k =? a)%nat; now apply H.
Qed.
Lemma transp_ab_embeds a b v v' : vwf v -> transp_ab a b v = Ok v' ->
  let f := swapn (Z.to_nat a) (Z.to_nat b) in
  vwf v' /\ shows v' v f /\ inj_on v' f.
Proof.
  intros Hw E f. destruct (transp_ab_inv a b v v' Hw E) as (Ha & Hb & ->). unfold ndims in *.
  pose proof Hw as [L Hn]. unfold f.
  assert (Lv : length (swapn (Z.to_nat a) (Z.to_nat b) (vstr v)) = length (swapn (Z.to_nat a) (Z.to_nat b) (vdims v)))
    by now rewrite !swapn_length.
  split; [|split].
  - split; [assumption|]. cbn. apply nonneg_nth_iff. intro k. rewrite nth_swapn by lia.
    destruct (_ =? _)%nat; [now apply nonneg_nth|]. destruct (_ =? _)%nat; now apply nonneg_nth.
  - apply shows_intro; auto. cbn. intros ix Hr. split.
    + rewrite <- (swapn_invol (Z.to_nat a) (Z.to_nat b) (vdims v)) by lia.
      apply in_range_swapn; rewrite ?swapn_length; try lia. assumption.
    + apply in_range_length in Hr. rewrite swapn_length in Hr.
      rewrite <- (dot_swapn (Z.to_nat a) (Z.to_nat b) (vstr v)) by (rewrite ?swapn_length; lia).
      rewrite swapn_invol by lia. reflexivity.
  - intros ix jx Hi Hj E2. cbn in *. apply in_range_length in Hi. apply in_range_length in Hj.
    rewrite swapn_length in *.
    rewrite <- (swapn_invol (Z.to_nat a) (Z.to_nat b) ix), E2 by lia. apply swapn_invol; lia.
Qed.

(* permute *)
Fixpoint index_of (j : Z) (p : list Z) : Z :=
  match p with [] => 0 | x :: p' => if x =? j then 0 else 1 + index_of j p' end.
Definition unpermute (p ix : list Z) : list Z :=
  map (fun j => nth (Z.to_nat (index_of j p)) ix 0) (zrange (Z.of_nat (length p))).
Lemma index_of_ok j p : In j p -> 0 <= index_of j p < Z.of_nat (length p) /\ nth (Z.to_nat (index_of j p)) p 0 = j.
Proof.
  induction p as [|x p IH]; [contradiction|]. intro H. cbn [index_of length]. destruct (x =? j) eqn:E.
  - split; [lia|]. cbn. lia.
  - destruct H as [->|H]; [lia|]. destruct (IH H) as [H1 H2]. split; [lia|].
    replace (Z.to_nat (1 + index_of j p)) with (S (Z.to_nat (index_of j p))) by lia. exact H2.
Qed.
Lemma index_of_nth p k : NoDup p -> (k < length p)%nat -> index_of (nth k p 0) p = Z.of_nat k.
Proof.
  intros Hnd Hk. destruct (index_of_ok (nth k p 0) p) as [H1 H2]; [now apply nth_In|].
  rewrite NoDup_nth with (d := 0) in Hnd. specialize (Hnd (Z.to_nat (index_of (nth k p 0) p)) k).
  specialize (Hnd ltac:(lia) Hk H2). lia.
Qed.
Lemma nth_map_zrange (f : Z -> Z) n k : (k < n)%nat ->
  nth k (map f (zrange (Z.of_nat n))) 0 = f (Z.of_nat k).
Proof.
  intro H. apply nth_error_nth. rewrite nth_error_map.
  pose proof (zrange_nth (Z.of_nat n) (Z.of_nat k)) as E. rewrite Nat2Z.id in E. rewrite E by lia. reflexivity.
Qed.
Lemma gather_nth (l r p : list Z) : gather l p = Ok r -> length r = length p /\
  forall k, (k < length p)%nat -> nth k r 0 = nth (Z.to_nat (nth k p 0)) l 0.
Proof.
  intro E. apply gather_map_iff in E as [L H]. split; [assumption|]. intros k Hk.
  destruct (nth_error p k) as [i|] eqn:Ek; [|apply nth_error_None in Ek; lia].
  destruct (H k i Ek) as [Hi Er]. rewrite (nth_error_nth p k 0 Ek).
  destruct (nth_error l (Z.to_nat i)) as [x|] eqn:El; [|apply nth_error_None in El; lia].
  rewrite (nth_error_nth _ _ 0 El). now apply nth_error_nth.
Qed.
Lemma is_perm_nodup p : is_perm p -> NoDup p.
Proof. intro H. eapply Permutation_NoDup; [symmetry; exact H|apply zrange_nodup]. Qed.
Lemma is_perm_in p j : is_perm p -> 0 <= j < Z.of_nat (length p) -> In j p.
Proof. intros H Hj. eapply Permutation_in; [symmetry; exact H|]. now apply in_zrange. Qed.

Lemma combine_nth0 (a b : list Z) k : length a = length b ->
  nth k (combine a b) (0, 0) = (nth k a 0, nth k b 0).
Proof. apply combine_nth. Qed.
Lemma dot_combine s ix : length s = length ix ->
  dot s ix = fold_right Z.add 0 (map (fun q => fst q * snd q) (combine s ix)).
Proof.
  revert ix; induction s as [|a s IH]; intros [|i ix] L; try discriminate; [reflexivity|].
  cbn. rewrite IH by (now injection L). reflexivity.
Qed.
Lemma dot_gather p s ix s' ix' : is_perm p -> length p = length s -> length s = length ix ->
  gather s p = Ok s' -> gather ix p = Ok ix' -> dot s' ix' = dot s ix.
Proof.
  intros Hp L1 L2 E1 E2. destruct (gather_nth _ _ _ E1) as [Ls Hs]. destruct (gather_nth _ _ _ E2) as [Li Hi].
  assert (Bp := is_perm_bounds p Hp).
  rewrite !dot_combine by lia.
  assert (P : Permutation (combine s' ix') (combine s ix)).
  { destruct (gather_ok (combine s ix) p) as (r & Er & Lr & Hr).
    { rewrite combine_length, <- L2, Nat.min_id, <- L1. exact Bp. }
    replace (combine s' ix') with r.
    - eapply gather_perm; [exact Hp| |exact Er]. rewrite combine_length. lia.
    - apply nth_ext with (d := (0,0)) (d' := (0,0)); [rewrite combine_length; lia|].
      intros k Hk. rewrite combine_nth0 by lia. rewrite Hs, Hi by lia.
      destruct (nth_error p k) as [i|] eqn:Ek; [|apply nth_error_None in Ek; lia].
      specialize (Hr k i Ek). rewrite (nth_error_nth p k 0 Ek).
      destruct (nth_error r k) as [q|] eqn:Eq; [|apply nth_error_None in Eq; lia].
      rewrite (nth_error_nth _ _ _ Eq).
      symmetry in Hr. apply nth_error_nth with (d := (0,0)) in Hr. rewrite combine_nth0 in Hr by lia. now symmetry. }
  apply Permutation_map with (f := fun q => fst q * snd q) in P.
  clear -P. induction P; cbn; try congruence; lia.
Qed.
Lemma gather_unpermute p ix : is_perm p -> length ix = length p -> gather (unpermute p ix) p = Ok ix.
Proof.
  intros Hp L. assert (Bp := is_perm_bounds p Hp).
  assert (Lu : length (unpermute p ix) = length p) by (unfold unpermute; rewrite map_length, zrange_length; lia).
  destruct (gather_ok (unpermute p ix) p) as (r & Er & Lr & _).
  { rewrite Lu. exact Bp. }
  rewrite Er. f_equal. destruct (gather_nth _ _ _ Er) as [_ H].
  apply list_nth0_ext; [lia|]. intros k Hk. rewrite H by lia. unfold unpermute.
  assert (Hb : 0 <= nth k p 0 < Z.of_nat (length p)).
  { rewrite Forall_forall in Bp. apply Bp. apply nth_In. lia. }
  rewrite nth_map_zrange by lia. rewrite Z2Nat.id by lia.
  rewrite index_of_nth by (try apply is_perm_nodup; auto; lia). f_equal. lia.
Qed.
Lemma in_range_gather p ix dims ix' dims' : is_perm p -> length p = length dims ->
  gather ix p = Ok ix' -> gather dims p = Ok dims' -> length ix = length dims ->
  (in_range ix dims <-> in_range ix' dims').
Proof.
  intros Hp L E1 E2 Lx. destruct (gather_nth _ _ _ E1) as [Li Hi]. destruct (gather_nth _ _ _ E2) as [Ld Hd].
  assert (Bp := is_perm_bounds p Hp). rewrite !in_range_nth. split.
  - intros [_ H]. split; [lia|]. intros k Hk. rewrite Hi, Hd by lia. apply H.
    assert (0 <= nth k p 0 < Z.of_nat (length p)) by (rewrite Forall_forall in Bp; apply Bp; apply nth_In; lia). lia.
  - intros [_ H]. split; [assumption|]. intros k Hk.
    destruct (index_of_ok (Z.of_nat k) p) as [H1 H2]; [apply is_perm_in; auto; lia|].
    specialize (H (Z.to_nat (index_of (Z.of_nat k) p))). rewrite Hi, Hd, H2, Nat2Z.id in H by lia. apply H. lia.
Qed.
Lemma permute_inv p v v' : permute_indices p v = Ok v' ->
  length p = length (vdims v) /\ length p = length (vstr v) /\
  vblk v' = vblk v /\ voff v' = voff v /\ gather (vdims v) p = Ok (vdims v') /\ gather (vstr v) p = Ok (vstr v').
Proof.
  unfold permute_indices, vpermute, assrt. intro E.
  destruct (_ =? _)%nat eqn:E1; cbn in E; [|discriminate].
  destruct (gather (vdims v) p) as [d| |] eqn:Ed; cbn in E; try discriminate.
  destruct (length p =? length (vstr v))%nat eqn:E2; cbn in E; [|discriminate].
  destruct (gather (vstr v) p) as [s| |] eqn:Es; cbn in E; try discriminate. injection E as <-.
  apply Nat.eqb_eq in E1. apply Nat.eqb_eq in E2. cbn. repeat split; assumption || reflexivity.
Qed.
Lemma permute_embeds p v v' : vwf v -> is_perm p -> permute_indices p v = Ok v' ->
  vwf v' /\ shows v' v (unpermute p) /\ inj_on v' (unpermute p).
Proof.
  intros Hw Hp E. destruct (permute_inv p v v' E) as (Ld & Ls & Hb & Ho & Ed & Es).
  destruct (gather_nth _ _ _ Ed) as [Ld' Hd]. destruct (gather_nth _ _ _ Es) as [Ls' Hs].
  pose proof Hw as [L Hn].
  assert (U : forall ix, length (unpermute p ix) = length p) by (intro; unfold unpermute; rewrite map_length, zrange_length; lia).
  split; [|split].
  - split; [lia|]. apply nonneg_nth_iff. intro k. destruct (Nat.lt_ge_cases k (length p)).
    + rewrite Hd by assumption. now apply nonneg_nth.
    + rewrite nth_overflow by lia. lia.
  - apply shows_intro; auto; [lia|]. intros ix Hr. pose proof (in_range_length _ _ Hr) as Lx.
    pose proof (gather_unpermute p ix Hp) as Eg. specialize (Eg ltac:(lia)). split.
    + eapply in_range_gather; [exact Hp|exact Ld|exact Eg|exact Ed|rewrite U; lia|exact Hr].
    + rewrite Ho. f_equal. eapply dot_gather; [exact Hp|exact Ls| |exact Es|exact Eg]. rewrite U; lia.
  - intros ix jx Hi Hj E2. apply in_range_length in Hi. apply in_range_length in Hj.
    pose proof (gather_unpermute p ix Hp ltac:(lia)) as E1'. rewrite E2 in E1'.
    rewrite gather_unpermute in E1' by (auto; lia). now injection E1'.
Qed.

(* reshape *)
Lemma reshape_inv nd v v' : vwf v -> reshape nd v = Ok v' ->
  prod nd = prod (vdims v) /\ vstr v = strides_of 1 (vdims v) /\
  v' = View (vblk v) (voff v) nd (strides_of 1 nd).
Proof.
  intros [L Hn] E. unfold reshape, assrt in E. rewrite !asize_prod in E.
  destruct (_ =? _) eqn:E1; [|discriminate]. destruct (is_regular (vstr v) (vdims v)) as [r| |] eqn:Er; cbn in E; try discriminate.
  destruct r; [|discriminate]. injection E as <-. apply is_regular_iff in Er; [|assumption].
  split; [lia|]. auto.
Qed.
Definition reflat (nd dims : list Z) (ix : list Z) : list Z :=
  match unflat (flat ix nd) dims with Ok jx => jx | _ => [] end.
Lemma reflat_ok nd dims ix : nonneg dims -> prod nd = prod dims -> in_range ix nd ->
  in_range (reflat nd dims ix) dims /\ flat (reflat nd dims ix) dims = flat ix nd.
Proof.
  intros Hn Hp Hr. pose proof (flat_range _ _ Hr) as Hf. unfold reflat.
  destruct (unflat_ok dims (flat ix nd)) as (jx & -> & H1 & H2); [|lia|auto].
  apply prod_pos_positive; [assumption|lia].
Qed.
Lemma reshape_embeds nd v v' : vwf v -> nonneg nd -> reshape nd v = Ok v' ->
  vwf v' /\ shows v' v (reflat nd (vdims v)) /\ inj_on v' (reflat nd (vdims v)).
Proof.
  intros Hw Hnd E. destruct (reshape_inv nd v v' Hw E) as (Hp & Es & ->). pose proof Hw as [L Hn].
  split; [|split].
  - split; [apply strides_of_length|assumption].
  - apply shows_intro; auto; [apply strides_of_length|]. cbn. intros ix Hr.
    destruct (reflat_ok nd (vdims v) ix Hn Hp Hr) as [H1 H2]. split; [assumption|].
    rewrite Es. rewrite !dot_strides_of by (now apply in_range_length). now rewrite H2.
  - intros ix jx Hi Hj E2. cbn in *.
    destruct (reflat_ok nd (vdims v) ix Hn Hp Hi) as [_ H2]. destruct (reflat_ok nd (vdims v) jx Hn Hp Hj) as [_ H3].
    apply flat_inj with nd; auto. congruence.
Qed.

(* squeeze, slice: insert a fixed entry *)
Lemma insert_embeds v d i b :
  vwf v -> (d < length (vdims v))%nat -> 0 <= i < nth d (vdims v) 0 -> b = voff v + nth d (vstr v) 0 * i ->
  let v' := View (vblk v) b (del d (vdims v)) (del d (vstr v)) in
  vwf v' /\ shows v' v (ins d i) /\ inj_on v' (ins d i).
Proof.
  intros Hw Hd Hi Hb v'. pose proof Hw as [L Hn].
  assert (Lv : length (vstr v') = length (vdims v')) by (cbn; rewrite !del_length by lia; lia).
  split; [|split].
  - split; [assumption|]. now apply nonneg_del.
  - apply shows_intro; auto. cbn. intros ix Hr. split; [now apply in_range_ins_del|].
    apply in_range_length in Hr. rewrite del_length in Hr by assumption.
    rewrite dot_ins_r by lia. rewrite Hb. ring.
  - intros ix jx Hix Hjx E. cbn in *. apply in_range_length in Hix. apply in_range_length in Hjx.
    rewrite del_length in * by assumption.
    apply ins_inj in E; [tauto|lia|lia].
Qed.
Lemma squeeze_embeds d v v' : vwf v -> squeeze d v = Ok v' ->
  vwf v' /\ shows v' v (ins (Z.to_nat d) 0) /\ inj_on v' (ins (Z.to_nat d) 0).
Proof.
  intros Hw E. unfold squeeze in E. apply bind_ok in E as (n & En & E).
  unfold assrt in E. destruct (n =? 1) eqn:E1; [|discriminate].
  apply bind_ok in E as (dd & Ed & E). apply bind_ok in E as (ss & Es & E). injection E as <-.
  apply vremove_inv in Ed as [Hd ->]. apply vremove_inv in Es as [Hs ->].
  apply zget_nth in En as [_ En]. apply insert_embeds; [assumption|lia|lia|ring].
Qed.
Lemma slice_embeds d i v v' : vwf v -> args_ok (OSlice d i) v -> slice d i v = Ok v' ->
  vwf v' /\ shows v' v (ins (Z.to_nat d) i) /\ inj_on v' (ins (Z.to_nat d) i).
Proof.
  intros Hw (n & En & Hi) E. unfold slice in E.
  apply bind_ok in E as (s & Eg & E). apply bind_ok in E as (dd & Ed & E). apply bind_ok in E as (ss & Es & E).
  injection E as <-. apply vremove_inv in Ed as [Hd ->]. apply vremove_inv in Es as [Hs ->].
  apply zget_nth in En as [_ En]. apply zget_nth in Eg as [_ Eg].
  apply insert_embeds; [assumption|lia|lia|]. rewrite Eg. reflexivity.
Qed.

(* unsqueeze, insert_dim: drop an entry *)
Lemma drop_embeds v d n s :
  vwf v -> (d <= length (vdims v))%nat -> 0 <= n -> (n = 1 \/ s = 0) ->
  let v' := View (vblk v) (voff v) (ins d n (vdims v)) (ins d s (vstr v)) in
  vwf v' /\ shows v' v (del d) /\ (n = 1 -> inj_on v' (del d)).
Proof.
  intros Hw Hd Hn0 Hns v'. pose proof Hw as [L Hn].
  assert (Lv : length (vstr v') = length (vdims v')) by (cbn; rewrite !ins_length by lia; lia).
  split; [|split].
  - split; [assumption|]. now apply nonneg_ins.
  - apply shows_intro; auto. cbn. intros ix Hr. destruct (in_range_ins_inv d n ix (vdims v) Hd Hr) as [H1 H2].
    split; [assumption|]. apply in_range_length in Hr. rewrite ins_length in Hr by assumption.
    rewrite dot_ins_l by lia. destruct Hns; [|subst; ring].
    replace (nth d ix 0) with 0 by lia. ring.
  - intros -> ix jx Hi Hj E. cbn in *.
    destruct (in_range_ins_inv d 1 ix (vdims v) Hd Hi) as [_ H2]. destruct (in_range_ins_inv d 1 jx (vdims v) Hd Hj) as [_ H3].
    apply in_range_length in Hi. apply in_range_length in Hj. rewrite ins_length in * by assumption.
    rewrite <- (ins_del d ix), <- (ins_del d jx), E by lia. f_equal. lia.
Qed.
Lemma unsqueeze_embeds d v v' : vwf v -> unsqueeze d v = Ok v' ->
  1 <= d <= ndims v /\ vwf v' /\ shows v' v (del (Z.to_nat d)) /\ inj_on v' (del (Z.to_nat d)).
Proof.
  intros Hw E. unfold unsqueeze in E.
  apply bind_ok in E as (m & Em & E). apply bind_ok in E as (sp & Esp & E).
  apply bind_ok in E as (dd & Ed & E). apply bind_ok in E as (ss & Es & E). injection E as <-.
  apply zget_nth in Esp as [Hd1 _]. apply vinsert_inv in Ed as [Hd ->]. apply vinsert_inv in Es as [Hs ->].
  split; [unfold ndims; lia|].
  destruct (drop_embeds v (Z.to_nat d) 1 (if d =? 0 then m else sp)) as (A & B & C); auto; try lia.
Qed.
Lemma insert_dim_embeds d n v v' : vwf v -> 0 <= n -> insert_dim d n v = Ok v' ->
  vwf v' /\ shows v' v (del (Z.to_nat d)).
Proof.
  intros Hw Hn E. unfold insert_dim in E.
  apply bind_ok in E as (dd & Ed & E). apply bind_ok in E as (ss & Es & E). injection E as <-.
  apply vinsert_inv in Ed as [Hd ->]. apply vinsert_inv in Es as [Hs ->].
  destruct (drop_embeds v (Z.to_nat d) n 0) as (A & B & C); auto; lia.
Qed.

(* cinflate *)
Lemma inflate_embeds v d n : vwf v -> (d < length (vdims v))%nat -> nth d (vdims v) 0 = 1 -> 0 <= n ->
  let v' := View (vblk v) (voff v) (set_nth d n (vdims v)) (set_nth d 0 (vstr v)) in
  vwf v' /\ shows v' v (set_nth d 0).
Proof.
  intros Hw Hd H1 Hn0 v'. pose proof Hw as [L Hn].
  split; [split; [cbn; rewrite !set_nth_length; lia|now apply nonneg_set]|].
  apply shows_intro; auto; [cbn; rewrite !set_nth_length; lia|]. cbn. intros ix Hr.
  destruct (in_range_set_inv d n ix (vdims v) Hd Hr) as [H2 H3].
  split; [apply H3; lia|]. apply in_range_length in Hr. rewrite set_nth_length in Hr.
  rewrite dot_set_l, dot_set_r by lia. ring.
Qed.
Lemma cinflate_inv d n v v' : cinflate d n v = Ok v' ->
  0 <= d < ndims v /\
  (nth (Z.to_nat d) (vdims v) 0 = n /\ v' = v \/
   nth (Z.to_nat d) (vdims v) 0 = 1 /\ v' = View (vblk v) (voff v) (set_nth (Z.to_nat d) n (vdims v)) (set_nth (Z.to_nat d) 0 (vstr v))).
Proof.
  unfold cinflate. intro E. apply bind_ok in E as (m & Em & E). apply zget_nth in Em as [Hd Em].
  split; [unfold ndims; lia|]. unfold assrt in E. destruct (_ || _) eqn:Eo; [|discriminate].
  destruct (m =? n) eqn:Emn.
  - injection E as <-. left. split; [lia|reflexivity].
  - apply bind_ok in E as (dd & Ed & E). apply bind_ok in E as (ss & Es & E). injection E as <-.
    apply vset_inv in Ed as [_ ->]. apply vset_inv in Es as [_ ->]. right. split; [lia|reflexivity].
Qed.
Lemma shows_id v : shows v v (fun ix => ix).
Proof. intros ix H. auto. Qed.
Lemma cinflate_embeds d n v v' : vwf v -> 0 <= n -> cinflate d n v = Ok v' ->
  vwf v' /\ exists f, shows v' v f.
Proof.
  intros Hw Hn E. destruct (cinflate_inv d n v v' E) as [Hd [[H1 ->]|[H1 ->]]].
  - split; [assumption|]. exists (fun ix => ix). apply shows_id.
  - unfold ndims in Hd. destruct (inflate_embeds v (Z.to_nat d) n Hw) as [A B]; auto; [lia|]. eauto.
Qed.

(* split *)
Definition merge_at (d : nat) (b : Z) (ix : list Z) : list Z :=
  set_nth d (nth d ix 0 * b + nth (S d) ix 0) (del d ix).
Lemma nth_del d k l : nth k (del d l) 0 = if (k <? d)%nat then nth k l 0 else nth (S k) l 0.
Proof.
  revert d k; induction l as [|a l IH]; intros d k.
  - destruct (k <? d)%nat, d, k; reflexivity.
  - destruct d as [|d]; [reflexivity|]. destruct k as [|k]; [reflexivity|].
    cbn [del nth]. rewrite IH. reflexivity.
Qed.
Lemma nth_ins_gen d k x l : (d <= length l)%nat ->
  nth k (ins d x l) 0 = if (k <? d)%nat then nth k l 0 else if (k =? d)%nat then x else nth (pred k) l 0.
Proof.
  revert d k; induction l as [|a l IH]; intros d k H.
  - destruct d; [|cbn in H; lia]. destruct k as [|[|k]]; reflexivity.
  - destruct d as [|d]; [destruct k as [|k]; reflexivity|]. destruct k as [|k]; [reflexivity|].
    cbn [ins nth]. rewrite IH by (cbn in H; lia). cbn [pred].
    change (S k <? S d)%nat with (k <? d)%nat. change (S k =? S d)%nat with (k =? d)%nat.
    destruct (k <? d)%nat eqn:E1; [reflexivity|]. destruct (k =? d)%nat eqn:E2; [reflexivity|].
    destruct k as [|k]; [destruct d; discriminate|]. reflexivity.
Qed.
Lemma split_embeds v d a b :
  vwf v -> (d < length (vdims v))%nat -> nth d (vdims v) 0 = a * b -> 0 <= a -> 0 <= b ->
  let v' := View (vblk v) (voff v) (set_nth (S d) b (ins d a (vdims v))) (ins d (nth d (vstr v) 0 * b) (vstr v)) in
  vwf v' /\ shows v' v (merge_at d b) /\ inj_on v' (merge_at d b).
Proof.
  intros Hw Hd Hab Ha Hb v'. pose proof Hw as [L Hn].
  assert (Ln : length (ins d a (vdims v)) = S (length (vdims v))) by (apply ins_length; lia).
  assert (Lv : length (vstr v') = length (vdims v')) by (unfold v'; cbn [vdims vstr]; rewrite set_nth_length, !ins_length by lia; lia).
  assert (Q : forall ix, in_range ix (vdims v') -> length ix = S (length (vdims v)) /\
     0 <= nth d ix 0 < a /\ 0 <= nth (S d) ix 0 < b /\
     (forall k, (k < length (vdims v))%nat -> k <> d -> 0 <= nth k (del d ix) 0 < nth k (vdims v) 0)).
  { intros ix Hr. unfold v' in Hr; cbn [vdims] in Hr. apply in_range_nth in Hr as [Lx Hk].
    rewrite set_nth_length, Ln in Lx, Hk.
    assert (HN : forall k, nth k (set_nth (S d) b (ins d a (vdims v))) 0 =
       if (k =? S d)%nat then b else if (k <? d)%nat then nth k (vdims v) 0 else if (k =? d)%nat then a else nth (pred k) (vdims v) 0).
    { intro k. rewrite nth_set_nth by lia. rewrite nth_ins_gen by lia. reflexivity. }
    split; [assumption|]. split; [|split].
    - specialize (Hk d ltac:(lia)). rewrite HN in Hk. replace (d =? S d)%nat with false in Hk by (symmetry; apply Nat.eqb_neq; lia).
      rewrite Nat.ltb_irrefl, Nat.eqb_refl in Hk. exact Hk.
    - specialize (Hk (S d) ltac:(lia)). rewrite HN, Nat.eqb_refl in Hk. exact Hk.
    - intros k Hkl Hkd. rewrite nth_del. destruct (k <? d)%nat eqn:E.
      + specialize (Hk k ltac:(lia)). rewrite HN, E in Hk.
        replace (k =? S d)%nat with false in Hk by (symmetry; apply Nat.eqb_neq; apply Nat.ltb_lt in E; lia). exact Hk.
      + apply Nat.ltb_ge in E. specialize (Hk (S k) ltac:(lia)). rewrite HN in Hk.
        replace (S k =? S d)%nat with false in Hk by (symmetry; apply Nat.eqb_neq; lia).
        replace (S k <? d)%nat with false in Hk by (symmetry; apply Nat.ltb_ge; lia).
        replace (S k =? d)%nat with false in Hk by (symmetry; apply Nat.eqb_neq; lia). exact Hk. }
  split; [|split].
  - split; [assumption|]. unfold v'; cbn [vdims]. apply nonneg_set; [|assumption]. now apply nonneg_ins.
  - apply shows_intro; auto. intros ix Hr. destruct (Q ix Hr) as (Lx & H1 & H2 & H3). unfold v'; cbn [vdims vstr vblk voff]. unfold merge_at.
    assert (Ld : length (del d ix) = length (vdims v)) by (rewrite del_length; lia).
    split.
    + apply in_range_nth. rewrite set_nth_length. split; [assumption|]. intros k Hk.
      rewrite nth_set_nth by lia. destruct (k =? d)%nat eqn:E.
      * apply Nat.eqb_eq in E; subst. rewrite Hab. nia.
      * apply Nat.eqb_neq in E. now apply H3.
    + rewrite dot_ins_l by lia. rewrite dot_set_r by lia. rewrite nth_del, Nat.ltb_irrefl. ring.
  - intros ix jx Hi Hj E. destruct (Q ix Hi) as (Li & H1 & H2 & _). destruct (Q jx Hj) as (Lj & H1' & H2' & _).
    unfold merge_at in E.
    assert (Ed : forall k, nth k (set_nth d (nth d ix 0 * b + nth (S d) ix 0) (del d ix)) 0 =
                           nth k (set_nth d (nth d jx 0 * b + nth (S d) jx 0) (del d jx)) 0) by (intro; now rewrite E).
    assert (Lid : length (del d ix) = length (vdims v)) by (rewrite del_length; lia).
    assert (Ljd : length (del d jx) = length (vdims v)) by (rewrite del_length; lia).
    pose proof (Ed d) as E0. rewrite !nth_set_nth, Nat.eqb_refl in E0 by lia.
    assert (nth d ix 0 = nth d jx 0) by nia. assert (nth (S d) ix 0 = nth (S d) jx 0) by nia.
    apply list_nth0_ext; [lia|]. intros k Hk.
    destruct (Nat.lt_trichotomy k d) as [Hkd|[->|Hkd]]; [|assumption|].
    + specialize (Ed k). rewrite !nth_set_nth in Ed by lia. replace (k =? d)%nat with false in Ed by (symmetry; apply Nat.eqb_neq; lia).
      rewrite !nth_del in Ed. replace (k <? d)%nat with true in Ed by (symmetry; apply Nat.ltb_lt; lia). exact Ed.
    + destruct (Nat.eq_dec k (S d)) as [->|]; [assumption|].
      specialize (Ed (pred k)). rewrite !nth_set_nth in Ed by lia. replace (pred k =? d)%nat with false in Ed by (symmetry; apply Nat.eqb_neq; lia).
      rewrite !nth_del in Ed. replace (pred k <? d)%nat with false in Ed by (symmetry; apply Nat.ltb_ge; lia).
      replace (S (pred k)) with k in Ed by lia. exact Ed.
Qed.
Lemma split0_embeds a b v v' : vwf v -> 0 <= a -> 0 <= b -> split0 a b v = Ok v' ->
  vwf v' /\ shows v' v (merge_at 0 b) /\ inj_on v' (merge_at 0 b).
Proof.
  intros Hw Ha Hb E. unfold split0, assrt in E. destruct (1 <=? ndims v) eqn:En; [|discriminate].
  apply bind_ok in E as (d0 & E0 & E). destruct (d0 =? a * b) eqn:Eab; [|discriminate].
  apply bind_ok in E as (d & Ed & E). apply bind_ok in E as (d' & Ed' & E).
  apply bind_ok in E as (s0 & Es0 & E). apply bind_ok in E as (s & Es & E). injection E as <-.
  apply zget_nth in E0 as [H0 E0]. apply vinsert_inv in Ed as [_ ->]. apply vset_inv in Ed' as [_ ->].
  apply zget_nth in Es0 as [_ Es0]. apply vinsert_inv in Es as [_ ->].
  rewrite <- Es0. apply (split_embeds v 0 a b); auto; cbn in *; lia.
Qed.
Lemma split1_embeds a b v v' : vwf v -> 0 <= a -> 0 <= b -> split1 a b v = Ok v' ->
  vwf v' /\ shows v' v (merge_at 1 b) /\ inj_on v' (merge_at 1 b).
Proof.
  intros Hw Ha Hb E. unfold split1, assrt in E. destruct (2 <=? ndims v) eqn:En; [|discriminate].
  apply bind_ok in E as (d0 & E0 & E). destruct (d0 =? a * b) eqn:Eab; [|discriminate].
  apply bind_ok in E as (d & Ed & E). apply bind_ok in E as (d' & Ed' & E).
  apply bind_ok in E as (s0 & Es0 & E). apply bind_ok in E as (s & Es & E). injection E as <-.
  apply zget_nth in E0 as [H0 E0]. apply vinsert_inv in Ed as [_ ->]. apply vset_inv in Ed' as [_ ->].
  apply zget_nth in Es0 as [_ Es0]. apply vinsert_inv in Es as [_ ->].
  rewrite <- Es0. apply (split_embeds v 1 a b); auto; change (Z.to_nat 1) with 1%nat in *; lia.
Qed.
Lemma set_ins_swap d q a l : (d < length l)%nat ->
  set_nth d q (ins (S d) a l) = set_nth (S d) a (ins d q l).
Proof.
  revert l; induction d as [|d IH]; intros [|x l] H; try (cbn in H; lia).
  - reflexivity.
  - cbn [ins set_nth]. f_equal. apply IH. cbn in H; lia.
Qed.
Lemma split_op_embeds d a v v' : vwf v -> 0 < a -> split d a v = Ok v' ->
  vwf v' /\ shows v' v (merge_at (Z.to_nat d) a) /\ inj_on v' (merge_at (Z.to_nat d) a).
Proof.
  intros Hw Ha E. unfold split, assrt in E. destruct (d <? ndims v) eqn:En; [|discriminate].
  apply bind_ok in E as (n & E0 & E). apply bind_ok in E as (r & Er & E). destruct (r =? 0) eqn:Er0; [|discriminate].
  apply bind_ok in E as (D & Ed & E). apply bind_ok in E as (q & Eq & E). apply bind_ok in E as (D' & Ed' & E).
  apply bind_ok in E as (s0 & Es0 & E). apply bind_ok in E as (s & Es & E). injection E as <-.
  apply zget_nth in E0 as [H0 E0]. apply vinsert_inv in Ed as [_ ->]. apply vset_inv in Ed' as [_ ->].
  apply zget_nth in Es0 as [_ Es0]. apply vinsert_inv in Es as [_ ->].
  unfold crem in Er. unfold cdiv in Eq. replace (a =? 0) with false in * by lia.
  injection Er as <-. injection Eq as <-. destruct Hw as [L Hn].
  assert (0 <= n) by (subst n; now apply nonneg_nth).
  rewrite Z.rem_mod_nonneg in Er0 by lia. rewrite Z.quot_div_nonneg by lia.
  replace (Z.to_nat (d + 1)) with (S (Z.to_nat d)) by lia.
  rewrite set_ins_swap by lia. rewrite <- Es0.
  apply (split_embeds v (Z.to_nat d) (n / a) a); [split; assumption|lia| |apply Z.div_pos; lia|lia].
  rewrite E0. rewrite (Z.div_mod n a) at 1 by lia. lia.
Qed.

(* fuse(a,b): axis b (the slower one) is absorbed into axis a *)
Definition unfuse (a b : nat) (da : Z) (ix : list Z) : list Z :=
  let a' := if (a <? b)%nat then a else pred a in
  ins b (nth a' ix 0 / da) (set_nth a' (nth a' ix 0 mod da) ix).
Lemma fuse_embeds v a b :
  vwf v -> (a < length (vdims v))%nat -> (b < length (vdims v))%nat -> a <> b ->
  nth b (vstr v) 0 = nth a (vdims v) 0 * nth a (vstr v) 0 ->
  let v' := View (vblk v) (voff v)
     (del b (set_nth a (nth a (vdims v) 0 * nth b (vdims v) 0) (vdims v))) (del b (vstr v)) in
  vwf v' /\ shows v' v (unfuse a b (nth a (vdims v) 0)) /\ inj_on v' (unfuse a b (nth a (vdims v) 0)).
Proof.
  intros Hw Ha Hb Hab Hs v'. pose proof Hw as [L Hn].
  set (da := nth a (vdims v) 0) in *. set (db := nth b (vdims v) 0) in *.
  assert (Hda : 0 <= da) by (now apply nonneg_nth). assert (Hdb : 0 <= db) by (now apply nonneg_nth).
  set (a' := if (a <? b)%nat then a else pred a).
  assert (Ea' : (a' < pred (length (vdims v)))%nat).
  { unfold a'. destruct (a <? b)%nat eqn:E; [apply Nat.ltb_lt in E; lia|apply Nat.ltb_ge in E; lia]. }
  assert (Nd : forall l : list Z, nth a' (del b l) 0 = nth a l 0).
  { intro l. rewrite nth_del. unfold a'. destruct (a <? b)%nat eqn:E; rewrite ?E; [reflexivity|].
    apply Nat.ltb_ge in E. replace (pred a <? b)%nat with false by (symmetry; apply Nat.ltb_ge; lia).
    f_equal. lia. }
  assert (Ed : vdims v' = set_nth a' (da * db) (del b (vdims v))).
  { cbn. apply list_nth0_ext; [rewrite set_nth_length, !del_length; rewrite ?set_nth_length; lia|].
    rewrite del_length by (rewrite set_nth_length; lia). rewrite set_nth_length. intros k Hk.
    rewrite nth_set_nth by (rewrite del_length; lia). rewrite !nth_del, !nth_set_nth by lia.
    unfold a'. destruct (a <? b)%nat eqn:E1; [apply Nat.ltb_lt in E1|apply Nat.ltb_ge in E1];
      destruct (k <? b)%nat eqn:E2; [apply Nat.ltb_lt in E2|apply Nat.ltb_ge in E2|apply Nat.ltb_lt in E2|apply Nat.ltb_ge in E2];
      try reflexivity.
    - replace (S k =? a)%nat with false by (symmetry; apply Nat.eqb_neq; lia).
      replace (k =? a)%nat with false by (symmetry; apply Nat.eqb_neq; lia). reflexivity.
    - replace (k =? a)%nat with false by (symmetry; apply Nat.eqb_neq; lia).
      replace (k =? pred a)%nat with false by (symmetry; apply Nat.eqb_neq; lia). reflexivity.
    - destruct (S k =? a)%nat eqn:E3.
      + apply Nat.eqb_eq in E3. replace (k =? pred a)%nat with true by (symmetry; apply Nat.eqb_eq; lia). reflexivity.
      + apply Nat.eqb_neq in E3. replace (k =? pred a)%nat with false by (symmetry; apply Nat.eqb_neq; lia). reflexivity. }
  assert (Ldel : length (del b (vdims v)) = pred (length (vdims v))) by (now apply del_length).
  assert (Lv : length (vstr v') = length (vdims v')).
  { rewrite Ed. cbn. rewrite set_nth_length, !del_length by lia. lia. }
  assert (Q : forall ix, in_range ix (vdims v') -> length ix = pred (length (vdims v)) /\
      0 <= nth a' ix 0 < da * db /\ 0 < da /\ 0 < db /\
      (forall i, 0 <= i < da -> in_range (set_nth a' i ix) (del b (vdims v)))).
  { intros ix Hr. pose proof (in_range_length _ _ Hr) as Lx. rewrite Ed in Hr, Lx. rewrite set_nth_length in Lx.
    destruct (in_range_set_inv a' (da * db) ix (del b (vdims v))) as [H1 H2]; [lia|exact Hr|].
    rewrite Nd in H2. split; [lia|]. split; [assumption|]. split; [nia|]. split; [nia|exact H2]. }
  split; [|split].
  - split; [assumption|]. rewrite Ed. apply nonneg_set; [now apply nonneg_del|nia].
  - apply shows_intro; auto. intros ix Hr. destruct (Q ix Hr) as (Lx & H1 & Hda' & Hdb' & H2).
    unfold unfuse. fold a'. set (k := nth a' ix 0) in *.
    assert (Hm : 0 <= k mod da < da) by (apply Z.mod_pos_bound; lia).
    assert (Hq : 0 <= k / da < db) by (split; [apply Z.div_pos; lia|apply Z.div_lt_upper_bound; lia]).
    split.
    + apply in_range_ins_del; [assumption| |assumption]. now apply H2.
    + cbn. rewrite dot_ins_r by (rewrite ?set_nth_length; lia).
      rewrite dot_set_r by (rewrite ?del_length; lia). fold k. rewrite Nd, Hs.
      rewrite (Z.div_mod k da) at 3 by lia. ring.
  - intros ix jx Hi Hj E. destruct (Q ix Hi) as (Lx & H1 & Hda' & Hdb' & _). destruct (Q jx Hj) as (Ly & H3 & _ & _ & _).
    unfold unfuse in E. fold a' in E. apply ins_inj in E; [|rewrite !set_nth_length; lia|rewrite set_nth_length; lia].
    destruct E as [Eq Es].
    assert (Em : nth a' ix 0 mod da = nth a' jx 0 mod da).
    { apply (f_equal (fun l => nth a' l 0)) in Es. rewrite !nth_set_nth, Nat.eqb_refl in Es by lia. exact Es. }
    assert (Ek : nth a' ix 0 = nth a' jx 0).
    { rewrite (Z.div_mod (nth a' ix 0) da), (Z.div_mod (nth a' jx 0) da) by lia. rewrite Eq, Em. reflexivity. }
    apply list_nth0_ext; [lia|]. intros k Hk. destruct (Nat.eq_dec k a') as [->|Hne]; [assumption|].
    apply (f_equal (fun l => nth k l 0)) in Es. rewrite !nth_set_nth in Es by lia.
    apply Nat.eqb_neq in Hne. rewrite Hne in Es. exact Es.
Qed.
Lemma fuse_ab_inv a b v v' : vwf v -> fuse_ab a b v = Ok v' ->
  0 <= a < ndims v /\ 0 <= b < ndims v /\
  let na := Z.to_nat a in let nb := Z.to_nat b in
  (nth na (vstr v) 0 < nth nb (vstr v) 0 /\ nth nb (vstr v) 0 = nth na (vdims v) 0 * nth na (vstr v) 0 /\
   v' = View (vblk v) (voff v) (del nb (set_nth na (nth na (vdims v) 0 * nth nb (vdims v) 0) (vdims v))) (del nb (vstr v))
   \/
   nth nb (vstr v) 0 <= nth na (vstr v) 0 /\ nth na (vstr v) 0 = nth nb (vdims v) 0 * nth nb (vstr v) 0 /\
   v' = View (vblk v) (voff v) (del na (set_nth nb (nth nb (vdims v) 0 * nth na (vdims v) 0) (vdims v))) (del na (vstr v))).
Proof.
  intros [L Hn] E. unfold fuse_ab, assrt in E.
  destruct (a <? ndims v) eqn:Ea; [|discriminate]. destruct (b <? ndims v) eqn:Eb; [|discriminate].
  apply bind_ok in E as (sa & Esa & E). apply bind_ok in E as (sb & Esb & E).
  apply bind_ok in E as (da & Eda & E). apply bind_ok in E as (db & Edb & E).
  apply zget_nth in Esa as [Ha Esa]. apply zget_nth in Esb as [Hb Esb].
  apply zget_nth in Eda as [_ Eda]. apply zget_nth in Edb as [_ Edb].
  unfold ndims in *. split; [lia|]. split; [lia|]. cbv zeta. rewrite Esa, Esb, Eda, Edb.
  destruct (sa <? sb) eqn:El.
  - destruct (da * sa =? sb) eqn:Em; [|discriminate].
    apply bind_ok in E as (d1 & E1 & E). apply bind_ok in E as (d2 & E2 & E). apply bind_ok in E as (s & Es & E).
    injection E as <-. apply vset_inv in E1 as [_ ->]. apply vremove_inv in E2 as [_ ->]. apply vremove_inv in Es as [_ ->].
    left. split; [lia|]. split; [lia|reflexivity].
  - destruct (db * sb =? sa) eqn:Em; [|discriminate].
    apply bind_ok in E as (d1 & E1 & E). apply bind_ok in E as (d2 & E2 & E). apply bind_ok in E as (s & Es & E).
    injection E as <-. apply vset_inv in E1 as [_ ->]. apply vremove_inv in E2 as [_ ->]. apply vremove_inv in Es as [_ ->].
    right. split; [lia|]. split; [lia|]. rewrite (Z.mul_comm da db). reflexivity.
Qed.
Lemma fuse_ab_embeds a b v v' : vwf v -> a <> b -> fuse_ab a b v = Ok v' ->
  vwf v' /\ exists f, shows v' v f /\ inj_on v' f.
Proof.
  intros Hw Hab E. destruct (fuse_ab_inv a b v v' Hw E) as (Ha & Hb & H). unfold ndims in *. cbv zeta in H.
  destruct H as [(_ & Hs & ->)|(_ & Hs & ->)].
  - destruct (fuse_embeds v (Z.to_nat a) (Z.to_nat b)) as (A & B & C); auto; try lia. split; [assumption|]. eauto.
  - destruct (fuse_embeds v (Z.to_nat b) (Z.to_nat a)) as (A & B & C); auto; try lia. split; [assumption|]. eauto.
Qed.

(* windows *)
Lemma window_embeds v off d : vwf v -> nonneg off -> nonneg d -> length off = length d ->
  Forall2 Z.le (zipadd off d) (vdims v) ->
  let v' := View (vblk v) (voff v + dot (vstr v) off) d (vstr v) in
  vwf v' /\ shows v' v (zipadd off) /\ inj_on v' (zipadd off).
Proof.
  intros Hw Ho Hd Lod Hle v'. pose proof Hw as [L Hn].
  assert (Ld : length d = length (vdims v)).
  { apply Forall2_length in Hle || (assert (G : forall x y, Forall2 Z.le x y -> length x = length y) by (induction 1; cbn; congruence); apply G in Hle).
    rewrite zipadd_length in Hle by assumption. lia. }
  assert (Lv : length (vstr v') = length (vdims v')) by (cbn; lia).
  split; [split; assumption|]. split.
  - apply shows_intro; auto. cbn. intros ix Hr. split; [eapply in_range_shift; eassumption|].
    apply in_range_length in Hr. rewrite dot_add by lia. ring.
  - intros ix jx Hi Hj E. cbn in *. apply in_range_length in Hi. apply in_range_length in Hj.
    clear -Lod Hi Hj E. revert off ix jx Lod Hi Hj E.
    induction d as [|d0 d IH]; intros [|o off] [|i ix] [|j jx] L1 L2 L3 E; try discriminate; [reflexivity|].
    cbn in E. injection E as E1 E2. f_equal; [lia|]. eapply IH; [| | |exact E2]; cbn in *; lia.
Qed.
Lemma block_at_inv d off v v' : block_at d off v = Ok v' ->
  length off = length d /\ Forall2 Z.le (zipadd off d) (vdims v) /\ (length off <= length (vstr v))%nat /\
  v' = View (vblk v) (voff v + dot (vstr v) off) d (vstr v).
Proof.
  unfold block_at, gvec_add, assrt. intro E.
  destruct (_ =? _)%nat eqn:El; cbn in E; [|discriminate]. apply Nat.eqb_eq in El.
  destruct (gindex_le _ _) eqn:Eg; cbn in E; [|discriminate]. apply gindex_le_spec in Eg.
  unfold offs, assrt in E. destruct (_ <=? _)%nat eqn:Eo; cbn in E; [|discriminate]. apply Nat.leb_le in Eo.
  injection E as <-. auto.
Qed.
Lemma block_embeds d off v v' : vwf v -> nonneg d -> nonneg off -> block_at d off v = Ok v' ->
  vwf v' /\ shows v' v (zipadd off) /\ inj_on v' (zipadd off).
Proof.
  intros Hw Hd Ho E. destruct (block_at_inv d off v v' E) as (L & Hle & _ & ->). now apply window_embeds.
Qed.

Lemma slices_inv d i n v v' : slices d i n v = Ok v' ->
  0 <= d < Z.of_nat (length (vdims v)) /\
  v' = View (vblk v) (voff v + nth (Z.to_nat d) (vstr v) 0 * i) (set_nth (Z.to_nat d) n (vdims v)) (vstr v).
Proof.
  unfold slices. intro E. apply bind_ok in E as (s & Es & E). apply bind_ok in E as (dd & Ed & E). injection E as <-.
  apply vset_inv in Ed as [Hd ->]. apply zget_nth in Es as [_ Es]. rewrite Es. auto.
Qed.
Definition shift_at (d : nat) (i : Z) (ix : list Z) : list Z := set_nth d (i + nth d ix 0) ix.
Lemma slices_embeds d i n v v' : vwf v -> args_ok (OSlices d i n) v -> slices d i n v = Ok v' ->
  vwf v' /\ shows v' v (shift_at (Z.to_nat d) i) /\ inj_on v' (shift_at (Z.to_nat d) i).
Proof.
  intros Hw (m & Em & Hi & Hn0 & Him) E. destruct (slices_inv d i n v v' E) as (Hd & ->).
  pose proof Hw as [L Hn]. apply zget_nth in Em as [_ Em]. set (dn := Z.to_nat d) in *.
  assert (Hdn : (dn < length (vdims v))%nat) by lia.
  split; [|split].
  - split; [cbn; rewrite set_nth_length; lia|]. now apply nonneg_set.
  - apply shows_intro; auto; [cbn; rewrite set_nth_length; lia|]. cbn. intros ix Hr.
    destruct (in_range_set_inv dn n ix (vdims v) Hdn Hr) as [H1 H2]. unfold shift_at.
    split; [apply H2; lia|]. apply in_range_length in Hr. rewrite set_nth_length in Hr.
    rewrite dot_set_r by lia. ring.
  - intros ix jx Hix Hjx E2. cbn in *. apply in_range_length in Hix. apply in_range_length in Hjx.
    rewrite set_nth_length in *. unfold shift_at in E2.
    apply list_nth0_ext; [lia|]. intros k Hk. apply (f_equal (fun l => nth k l 0)) in E2.
    rewrite !nth_set_nth in E2 by lia. destruct (k =? dn)%nat eqn:Ek; [|assumption].
    apply Nat.eqb_eq in Ek. subst k. lia.
Qed.

Lemma slice_prefix_inv ix v v' : vwf v -> slice_prefix ix v = Ok v' ->
  let k := length ix in
  (k <= length (vdims v))%nat /\
  v' = View (vblk v) (voff v + dot (firstn k (vstr v)) ix) (skipn k (vdims v)) (skipn k (vstr v)).
Proof.
  intros [L Hn] E k. unfold slice_prefix in E.
  apply bind_ok in E as (s1 & E1 & E). apply bind_ok in E as (o & Eo & E).
  apply bind_ok in E as (dd & Ed & E). apply bind_ok in E as (ss & Es & E). injection E as <-.
  assert (Hk : (k <= length (vdims v))%nat).
  { unfold vchunk in E1. destruct (Z.of_nat (length ix) =? -1) eqn:Ei; [lia|].
    cbn in E1. destruct (_ || _) eqn:Eo1; [discriminate|]. unfold k. lia. }
  destruct (C05_chunks_l (Z.of_nat k) (vdims v)) as (a & b & Ha & Hb & Hab); [unfold k in *; lia|].
  assert (G : forall l : list Z, (k <= length l)%nat -> vchunk (Z.of_nat k) (-1) l = Ok (skipn k l) /\ vchunk 0 (Z.of_nat k) l = Ok (firstn k l)).
  { intros l Hl. split.
    - unfold vchunk. replace (Z.of_nat k <? 0) with false by lia. change (-1 =? -1) with true. cbv iota zeta. ifF.
      f_equal. rewrite Nat2Z.id. apply firstn_all2. rewrite skipn_length. lia.
    - rewrite chunk_ok by lia. now rewrite Nat2Z.id. }
  destruct (G (vdims v) Hk) as [Gd _]. destruct (G (vstr v)) as [Gs Gs1]; [lia|].
  unfold k in *. rewrite Gd in Ed. rewrite Gs in Es. rewrite Gs1 in E1.
  injection Ed as <-. injection Es as <-. injection E1 as <-.
  split; [assumption|]. unfold offs, assrt in Eo. destruct (_ <=? _)%nat; [|discriminate]. injection Eo as <-. reflexivity.
Qed.
Lemma slice_prefix_embeds ix v v' : vwf v -> args_ok (OSlicePrefix ix) v -> slice_prefix ix v = Ok v' ->
  vwf v' /\ shows v' v (app ix) /\ inj_on v' (app ix).
Proof.
  intros Hw Hr E. destruct (slice_prefix_inv ix v v' Hw E) as (Hk & ->). pose proof Hw as [L Hn].
  cbn in Hr. set (k := length ix) in *.
  assert (Lv : length (skipn k (vstr v)) = length (skipn k (vdims v))) by (rewrite !skipn_length; lia).
  split; [|split].
  - split; [assumption|]. cbn. unfold nonneg in *. rewrite <- (firstn_skipn k (vdims v)) in Hn.
    now apply Forall_app in Hn as [_ Hn].
  - apply shows_intro; auto. cbn. intros jx Hj. split.
    + rewrite <- (firstn_skipn k (vdims v)). apply Forall2_app; assumption.
    + rewrite <- (firstn_skipn k (vstr v)) at 3. rewrite dot_app by (rewrite firstn_length; lia). ring.
  - intros a b _ _ E2. now apply app_inv_head in E2.
Qed.

(* rows, columns, diagonals of matrices *)
Lemma vwf2 v d0 d1 s0 s1 : vdims v = [d0; d1] -> vstr v = [s0; s1] -> vwf v -> 0 <= d0 /\ 0 <= d1.
Proof. intros Ed Es [_ Hn]. rewrite Ed in Hn. inversion Hn as [|? ? H0 H1]; subst. inversion H1; subst. auto. Qed.
Lemma row_inv i v v' : row i v = Ok v' -> exists d0 d1 s0 s1, vdims v = [d0; d1] /\ vstr v = [s0; s1] /\ i < d0 /\
  v' = View (vblk v) (voff v + s0 * i) [d1] [s1].
Proof.
  unfold row. destruct (vdims v) as [|d0 [|d1 [|]]]; try discriminate.
  destruct (vstr v) as [|s0 [|s1 [|]]]; try discriminate. unfold assrt. destruct (_ <? _) eqn:E; [|discriminate].
  intro H; injection H as <-. exists d0, d1, s0, s1. repeat split; lia.
Qed.
Lemma col_inv i v v' : col i v = Ok v' -> exists d0 d1 s0 s1, vdims v = [d0; d1] /\ vstr v = [s0; s1] /\ i < d1 /\
  v' = View (vblk v) (voff v + s1 * i) [d0] [s0].
Proof.
  unfold col. destruct (vdims v) as [|d0 [|d1 [|]]]; try discriminate.
  destruct (vstr v) as [|s0 [|s1 [|]]]; try discriminate. unfold assrt. destruct (_ <? _) eqn:E; [|discriminate].
  intro H; injection H as <-. exists d0, d1, s0, s1. repeat split; lia.
Qed.
Lemma rows_inv i n v v' : rows i n v = Ok v' -> exists d0 d1 s0 s1, vdims v = [d0; d1] /\ vstr v = [s0; s1] /\ i + n <= d0 /\
  v' = View (vblk v) (voff v + s0 * i) [n; d1] [s0; s1].
Proof.
  unfold rows. destruct (vdims v) as [|d0 [|d1 [|]]]; try discriminate.
  destruct (vstr v) as [|s0 [|s1 [|]]]; try discriminate. unfold assrt. destruct (_ <=? _) eqn:E; [|discriminate].
  intro H; injection H as <-. exists d0, d1, s0, s1. repeat split; lia.
Qed.
Lemma cols_inv i n v v' : cols i n v = Ok v' -> exists d0 d1 s0 s1, vdims v = [d0; d1] /\ vstr v = [s0; s1] /\ i + n <= d1 /\
  v' = View (vblk v) (voff v + s1 * i) [d0; n] [s0; s1].
Proof.
  unfold cols. destruct (vdims v) as [|d0 [|d1 [|]]]; try discriminate.
  destruct (vstr v) as [|s0 [|s1 [|]]]; try discriminate. unfold assrt. destruct (_ <=? _) eqn:E; [|discriminate].
  intro H; injection H as <-. exists d0, d1, s0, s1. repeat split; lia.
Qed.
Lemma diag_inv v v' : diag v = Ok v' -> exists d s0 s1, vdims v = [d; d] /\ vstr v = [s0; s1] /\
  v' = View (vblk v) (voff v) [d] [s0 + s1].
Proof.
  unfold diag. destruct (vdims v) as [|d0 [|d1 [|]]]; try discriminate.
  destruct (vstr v) as [|s0 [|s1 [|]]]; try discriminate. unfold assrt. destruct (_ =? _) eqn:E; [|discriminate].
  intro H; injection H as <-. assert (d1 = d0) by lia. subst. exists d0, s0, s1. repeat split.
Qed.
Lemma in_range1 ix d : in_range ix [d] <-> exists i, ix = [i] /\ 0 <= i < d.
Proof.
  split; [intro H; inversion H as [|i ? r ? Hi Hr]; subst; inversion Hr; subst; eauto|].
  intros (i & -> & Hi). repeat constructor; lia.
Qed.
Lemma in_range2 ix d e : in_range ix [d; e] <-> exists i j, ix = [i; j] /\ 0 <= i < d /\ 0 <= j < e.
Proof.
  split.
  - intro H; inversion H as [|i ? r ? Hi Hr]; subst. apply in_range1 in Hr as (j & -> & Hj). eauto.
  - intros (i & j & -> & Hi & Hj). repeat constructor; lia.
Qed.
Lemma row_embeds i v v' : vwf v -> 0 <= i -> row i v = Ok v' ->
  vwf v' /\ shows v' v (cons i) /\ inj_on v' (cons i).
Proof.
  intros Hw Hi E. destruct (row_inv i v v' E) as (d0 & d1 & s0 & s1 & Ed & Es & Hlt & ->).
  destruct (vwf2 _ _ _ _ _ Ed Es Hw) as [H0 H1]. split; [split; [reflexivity|repeat constructor; lia]|]. split.
  - apply shows_intro; auto. cbn. intros ix Hr. apply in_range1 in Hr as (j & -> & Hj).
    rewrite Ed, Es. split; [apply in_range2; exists i, j; auto|cbn; ring].
  - intros a b _ _ H. now injection H.
Qed.
Lemma col_embeds i v v' : vwf v -> 0 <= i -> col i v = Ok v' ->
  let f := fun ix => ix ++ [i] in vwf v' /\ shows v' v f /\ inj_on v' f.
Proof.
  intros Hw Hi E f. destruct (col_inv i v v' E) as (d0 & d1 & s0 & s1 & Ed & Es & Hlt & ->).
  destruct (vwf2 _ _ _ _ _ Ed Es Hw) as [H0 H1]. split; [split; [reflexivity|repeat constructor; lia]|]. split.
  - apply shows_intro; auto. cbn. intros ix Hr. apply in_range1 in Hr as (j & -> & Hj).
    rewrite Ed, Es. split; [apply in_range2; exists j, i; auto|cbn; ring].
  - intros a b _ _ H. now apply app_inv_tail in H.
Qed.
Lemma rows_embeds i n v v' : vwf v -> 0 <= i -> 0 <= n -> rows i n v = Ok v' ->
  let f := fun ix => zipadd [i; 0] ix in vwf v' /\ shows v' v f /\ inj_on v' f.
Proof.
  intros Hw Hi Hn E f. destruct (rows_inv i n v v' E) as (d0 & d1 & s0 & s1 & Ed & Es & Hle & ->).
  destruct (vwf2 _ _ _ _ _ Ed Es Hw) as [H0 H1].
  destruct (window_embeds v [i; 0] [n; d1]) as (A & B & C); auto;
    try (repeat constructor; lia); [rewrite Ed; cbn; repeat constructor; lia|].
  cbn in A, B, C. rewrite Es in A, B, C. cbn in A, B, C.
  replace (voff v + (s0 * i + (s1 * 0 + 0))) with (voff v + s0 * i) in * by ring. auto.
Qed.
Lemma cols_embeds i n v v' : vwf v -> 0 <= i -> 0 <= n -> cols i n v = Ok v' ->
  let f := fun ix => zipadd [0; i] ix in vwf v' /\ shows v' v f /\ inj_on v' f.
Proof.
  intros Hw Hi Hn E f. destruct (cols_inv i n v v' E) as (d0 & d1 & s0 & s1 & Ed & Es & Hle & ->).
  destruct (vwf2 _ _ _ _ _ Ed Es Hw) as [H0 H1].
  destruct (window_embeds v [0; i] [d0; n]) as (A & B & C); auto;
    try (repeat constructor; lia); [rewrite Ed; cbn; repeat constructor; lia|].
  cbn in A, B, C. rewrite Es in A, B, C. cbn in A, B, C.
  replace (voff v + (s0 * 0 + (s1 * i + 0))) with (voff v + s1 * i) in * by ring. auto.
Qed.
Lemma diag_embeds v v' : vwf v -> diag v = Ok v' ->
  let f := fun ix => ix ++ ix in vwf v' /\ shows v' v f /\ inj_on v' f.
Proof.
  intros Hw E f. destruct (diag_inv v v' E) as (d & s0 & s1 & Ed & Es & ->).
  destruct (vwf2 _ _ _ _ _ Ed Es Hw) as [H0 _]. split; [split; [reflexivity|repeat constructor; lia]|]. split.
  - apply shows_intro; auto. cbn. intros ix Hr. apply in_range1 in Hr as (j & -> & Hj).
    rewrite Ed, Es. unfold f. cbn. split; [apply in_range2; exists j, j; auto|ring].
  - intros a b Ha Hb H. cbn in *. apply in_range1 in Ha as (i & -> & _). apply in_range1 in Hb as (j & -> & _).
    unfold f in H. cbn in H. now injection H as ->.
Qed.

(* ---- C11 ---- *)
Lemma vop_embeds o v v' : vwf v -> args_ok o v -> apply_vop o v = Ok v' ->
  vwf v' /\ exists f, shows v' v f /\ (is_broadcast o = false -> inj_on v' f).
Proof.
  intros Hw Ha E. destruct o; cbn [apply_vop is_broadcast] in *.
  - apply transp_embeds in E as (A & B & C); eauto.
  - apply transp_ab_embeds in E as (A & B & C); eauto.
  - apply permute_embeds in E as (A & B & C); eauto.
  - apply reshape_embeds in E as (A & B & C); eauto.
  - apply squeeze_embeds in E as (A & B & C); eauto.
  - apply unsqueeze_embeds in E as (_ & A & B & C); eauto.
  - apply insert_dim_embeds in E as (A & B); eauto. split; [assumption|]. eexists; split; [eassumption|discriminate].
  - apply fuse_ab_embeds in E as (A & f & B & C); eauto.
  - destruct Ha. apply split0_embeds in E as (A & B & C); eauto.
  - destruct Ha. apply split1_embeds in E as (A & B & C); eauto.
  - apply split_op_embeds in E as (A & B & C); eauto.
  - apply cinflate_embeds in E as (A & f & B); eauto. split; [assumption|]. eexists; split; [eassumption|discriminate].
  - apply row_embeds in E as (A & B & C); eauto.
  - apply col_embeds in E as (A & B & C); eauto.
  - destruct Ha. apply rows_embeds in E as (A & B & C); eauto.
  - destruct Ha. apply cols_embeds in E as (A & B & C); eauto.
  - destruct Ha. apply block_embeds in E as (A & B & C); eauto.
  - apply diag_embeds in E as (A & B & C); eauto.
  - apply slice_embeds in E as (A & B & C); eauto.
  - apply slice_prefix_embeds in E as (A & B & C); eauto.
  - apply slices_embeds in E as (A & B & C); eauto.
Qed.

Lemma shows_inside v' v f b n : shows v' v f -> inside v b n -> inside v' b n.
Proof. intros H Hi ix Hr. destruct (H ix Hr) as [H1 ->]. now apply Hi. Qed.
Lemma shows_distinct v' v f : shows v' v f -> inj_on v' f -> distinct_cells v -> distinct_cells v'.
Proof.
  intros H Hinj Hd ix jx Hi Hj E. destruct (H ix Hi) as [H1 E1]. destruct (H jx Hj) as [H2 E2].
  rewrite E1, E2 in E. apply Hinj; auto.
Qed.
Lemma valid_run_safe l v v' b n : valid_run l v v' -> vwf v -> inside v b n ->
  vwf v' /\ inside v' b n /\
  (distinct_cells v -> forallb (fun o => negb (is_broadcast o)) l = true -> distinct_cells v').
Proof.
  induction 1 as [v|o l v v1 v2 Ha E Hrun IH]; intros Hw Hi.
  - auto.
  - destruct (vop_embeds o v v1 Hw Ha E) as (Hw1 & f & Hs & Hinj).
    destruct IH as (A & B & C); [assumption|now apply (shows_inside v1 v f)|].
    split; [assumption|]. split; [assumption|]. intros Hd Hb. cbn in Hb.
    apply andb_prop in Hb as [Hb1 Hb2]. apply C; [|assumption].
    apply (shows_distinct v1 v f); auto. apply Hinj. now destruct (is_broadcast o).
Qed.
Lemma fresh_wf b dims : nonneg dims -> vwf (fresh_view b dims).
Proof. intro H. split; [apply strides_of_length|assumption]. Qed.
Lemma fresh_inside b dims : nonneg dims -> inside (fresh_view b dims) b (asize dims) /\ distinct_cells (fresh_view b dims).
Proof.
  intro Hn. destruct (C03_l dims Hn) as (H1 & H2 & H3). split.
  - intros ix Hr. cbn in Hr. destruct (H1 ix Hr) as (a & Ea & _ & Ha). exists a. unfold vaddr. cbn. rewrite Ea. auto.
  - intros ix jx Hi Hj E. cbn in *. apply H2; auto.
    destruct (H1 ix Hi) as (a & Ea & _). destruct (H1 jx Hj) as (a' & Ea' & _).
    unfold vaddr in E. cbn in E. rewrite Ea, Ea' in *. cbn in E. congruence.
Qed.
Lemma C11_l l b dims v : nonneg dims -> valid_run l (fresh_view b dims) v ->
  inside v b (asize dims) /\ vwf v /\
  (forallb (fun o => negb (is_broadcast o)) l = true -> distinct_cells v).
Proof.
  intros Hn Hr. destruct (fresh_inside b dims Hn) as [H1 H2].
  destruct (valid_run_safe l _ v b (asize dims) Hr (fresh_wf b dims Hn) H1) as (A & B & C). auto.
Qed.
