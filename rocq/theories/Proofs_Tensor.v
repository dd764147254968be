From Verif Require Import Base BaseFacts Model_Index Model_View Model_Tensor Spec_Index Spec_View Spec_Tensor
  Proofs_Axes Proofs_Index Proofs_View Proofs_View2.
Local Open Scope Z_scope.

(* ---- running a list of memory updates ---- *)
Section Run.
Context {V : Type}.
Definition at_ (m : mem V) (p : addr) : option V := m (fst p) (snd p).
Definition entry : Type := (addr * list addr)%type.
Definition run (f : V -> list V -> V) (L : list entry) (m : mem V) : res (mem V) :=
  foldM (fun e => rmw f (fst e) (snd e)) L m.

Lemma loadA_some (m : mem V) p v : at_ m p = Some v -> loadA m p = Ok v.
Proof. unfold at_, loadA, load. now intros ->. Qed.
Lemma loads_ok (m : mem V) ps : Forall (fun p => at_ m p <> None) ps -> exists us, loads m ps = Ok us.
Proof.
  induction 1 as [|p ps Hp Hps [us IH]]; [now exists []|].
  destruct (at_ m p) as [v|] eqn:E; [|congruence]. cbn.
  rewrite (loadA_some m p v E). cbn. rewrite IH. cbn. eauto.
Qed.
Lemma loads_ext (m m' : mem V) ps : Forall (fun p => at_ m p = at_ m' p) ps -> loads m ps = loads m' ps.
Proof.
  induction 1 as [|p ps Hp Hps IH]; [reflexivity|]. cbn. unfold loadA, load. unfold at_ in Hp.
  rewrite Hp, IH. reflexivity.
Qed.
Lemma at_upd_same (m : mem V) p v : at_ (upd m (fst p) (snd p) v) p = Some v.
Proof. unfold at_. apply upd_same. Qed.
Lemma at_upd_other (m : mem V) p q v : q <> p -> at_ (upd m (fst p) (snd p) v) q = at_ m q.
Proof.
  intro H. unfold at_, upd. destruct ((fst q =? fst p) && (snd q =? snd p)) eqn:E; [|reflexivity].
  exfalso; apply H. destruct p, q; cbn in *. f_equal; lia.
Qed.

Definition result f (L : list entry) (m m' : mem V) : Prop :=
  (forall e, In e L -> exists v us, at_ m (fst e) = Some v /\ loads m (snd e) = Ok us /\ at_ m' (fst e) = Some (f v us)) /\
  (forall p, ~ In p (map fst L) -> at_ m' p = at_ m p).

Lemma run_ok f L m : NoDup (map fst L) ->
  (forall e, In e L -> at_ m (fst e) <> None /\ Forall (fun p => at_ m p <> None) (snd e)) ->
  (forall e e', In e L -> In e' L -> In (fst e) (snd e') -> e = e') ->
  exists m', run f L m = Ok m' /\ result f L m m'.
Proof.
  revert m; induction L as [|e L IH]; intros m Hnd Hall Hcl.
  - exists m. split; [reflexivity|]. split; [intros e []|reflexivity].
  - cbn in Hnd. apply NoDup_cons_iff in Hnd as [Hni Hnd].
    destruct (Hall e (or_introl eq_refl)) as [Ht Hs].
    destruct (at_ m (fst e)) as [v|] eqn:Ev; [|congruence].
    destruct (loads_ok m (snd e) Hs) as [us Hus].
    cbn. unfold rmw at 1. rewrite (loadA_some _ _ _ Ev). cbn. rewrite Hus. cbn.
    unfold store. unfold at_ in Ev. rewrite Ev. cbn.
    set (m1 := upd m (fst (fst e)) (snd (fst e)) (f v us)).
    assert (Hoth : forall q, q <> fst e -> at_ m1 q = at_ m q) by (intros; now apply at_upd_other).
    assert (Hne : forall e', In e' L -> fst e' <> fst e).
    { intros e' Hin Heq. apply Hni. rewrite <- Heq. now apply in_map. }
    assert (Hsrc : forall e', In e' L -> ~ In (fst e) (snd e')).
    { intros e' Hin Hin2. assert (e = e') by (apply Hcl; [now left|now right|assumption]).
      subst e'. now apply (Hne e). }
    destruct (IH m1) as (m' & Hrun & Hres & Hrest).
    + exact Hnd.
    + intros e' Hin. destruct (Hall e' (or_intror Hin)) as [A B]. split.
      * rewrite Hoth by now apply Hne. exact A.
      * rewrite Forall_forall in *. intros p Hp. rewrite Hoth; [now apply B|].
        intros ->. now apply (Hsrc e').
    + intros a b Ha Hb. apply Hcl; now right.
    + exists m'. split; [exact Hrun|]. split.
      * intros e' [<-|Hin].
        -- exists v, us. split; [exact Ev|]. split; [assumption|].
           rewrite Hrest by assumption. unfold m1. apply at_upd_same.
        -- destruct (Hres e' Hin) as (v' & us' & A & B & C).
           exists v', us'. rewrite Hoth in A by now apply Hne.
           split; [exact A|]. split; [|exact C].
           rewrite <- B. apply loads_ext. apply Forall_forall. intros p Hp.
           symmetry. apply Hoth. intros ->. now apply (Hsrc e').
      * intros p Hp. cbn in Hp. rewrite Hrest by tauto. apply Hoth. intros ->. tauto.
Qed.

Lemma result_perm f L L' m m' : Permutation L L' -> result f L m m' -> result f L' m m'.
Proof.
  intros P [A B]. split.
  - intros e Hin. apply A. now rewrite P.
  - intros p Hp. apply B. intro H. apply Hp. now rewrite <- P.
Qed.
Lemma run_perm f L L' m : Permutation L L' -> NoDup (map fst L') ->
  (forall e, In e L' -> at_ m (fst e) <> None /\ Forall (fun p => at_ m p <> None) (snd e)) ->
  (forall e e', In e L' -> In e' L' -> In (fst e) (snd e') -> e = e') ->
  exists m', run f L m = Ok m' /\ result f L' m m'.
Proof.
  intros P Hnd Hall Hcl.
  destruct (run_ok f L m) as (m' & A & B).
  - now rewrite P.
  - intros e Hin. apply Hall. now rewrite <- P.
  - intros e e' Hi Hi'. apply Hcl; now rewrite <- P.
  - exists m'. split; [assumption|]. eapply result_perm; eassumption.
Qed.
End Run.

(* ---- the entries of an elementwise operation ---- *)
Definition cell (v : view) (ix : list Z) : addr := (vblk v, voff v + dot (vstr v) ix).
Definition entries (r : view) (xs : list view) : list entry :=
  map (fun ix => (cell r ix, map (fun x => cell x ix) xs)) (all_indices (vdims r)).

Lemma vaddr_cell v ix : length (vstr v) = length (vdims v) -> in_range ix (vdims v) -> vaddr v ix = Ok (cell v ix).
Proof.
  intros L H. unfold vaddr. rewrite offs_dot; [reflexivity|]. apply in_range_length in H. congruence.
Qed.
Lemma elem_cell {V} (m : mem V) v ix : length (vstr v) = length (vdims v) -> in_range ix (vdims v) ->
  elem m v ix = at_ m (cell v ix).
Proof. intros L H. unfold elem. now rewrite vaddr_cell. Qed.

Lemma NoDup_map_in {A B} (f : A -> B) l : NoDup l ->
  (forall x y, In x l -> In y l -> f x = f y -> x = y) -> NoDup (map f l).
Proof.
  induction 1 as [|a l Hni Hnd IH]; intros Hi; cbn; constructor.
  - intro Hin. apply in_map_iff in Hin as (b & E & Hb). apply Hni.
    rewrite (Hi a b); [assumption|now left|now right|now symmetry].
  - apply IH. intros; apply Hi; try now right. assumption.
Qed.

Definition elementwise {V} (f : V -> list V -> V) (r : view) (xs : list view) (m m' : mem V) : Prop :=
  (forall ix, in_range ix (vdims r) -> exists v us, elem m r ix = Some v /\
      Forall2 (fun x u => elem m x ix = Some u) xs us /\ elem m' r ix = Some (f v us)) /\
  untouched m m' r.

Lemma loads_elems {V} (m : mem V) xs ix us dims :
  Forall (fun x => length (vstr x) = length (vdims x) /\ vdims x = dims) xs -> in_range ix dims ->
  loads m (map (fun x => cell x ix) xs) = Ok us -> Forall2 (fun x u => elem m x ix = Some u) xs us.
Proof.
  intros H Hr. revert us; induction H as [|x xs [Hl Hd] Hxs IH]; intros us E; cbn in E.
  - injection E as <-. constructor.
  - unfold loadA, load in E.
    destruct (m (fst (cell x ix)) (snd (cell x ix))) as [u|] eqn:Eu; [|discriminate]. cbn in E.
    destruct (loads m (map (fun x => cell x ix) xs)) as [us'| |] eqn:El; [|discriminate|discriminate].
    cbn in E. injection E as <-. constructor; [|now apply IH].
    rewrite elem_cell; [exact Eu|assumption|congruence].
Qed.

Lemma elementwise_of_run {V} (f : V -> list V -> V) r xs m L :
  vwf r -> distinct_cells r -> readable m r ->
  Forall (fun x => vwf x /\ vdims x = vdims r /\ readable m x /\ no_clobber r x) xs ->
  Permutation L (entries r xs) ->
  exists m', run f L m = Ok m' /\ elementwise f r xs m m'.
Proof.
  intros [Hl Hn] Hdist Hread Hxs P.
  destruct (run_perm f L (entries r xs) m P) as (m' & Hrun & Hres & Hrest).
  - unfold entries. rewrite map_map. cbn. apply NoDup_map_in; [apply all_indices_nodup|].
    intros ix jx Hi Hj E. apply in_all_indices in Hi, Hj. apply Hdist; try assumption.
    rewrite !vaddr_cell by assumption. now f_equal.
  - intros e Hin. apply in_map_iff in Hin as (ix & <- & Hix). apply in_all_indices in Hix. cbn.
    split; [rewrite <- elem_cell by assumption; now apply Hread|].
    apply Forall_forall. intros p Hp. apply in_map_iff in Hp as (x & <- & Hx).
    rewrite Forall_forall in Hxs. destruct (Hxs x Hx) as ([Lx _] & Dx & Rx & _).
    rewrite <- elem_cell; [apply Rx|assumption|]; congruence.
  - intros e e' Hin Hin' Hs. apply in_map_iff in Hin as (ix & <- & Hix).
    apply in_map_iff in Hin' as (jx & <- & Hjx). cbn in Hs.
    apply in_map_iff in Hs as (x & E & Hx). apply in_all_indices in Hix, Hjx.
    rewrite Forall_forall in Hxs. destruct (Hxs x Hx) as ([Lx _] & Dx & _ & Nc).
    assert (ix = jx); [|now subst].
    apply Nc; [assumption|congruence|]. rewrite !vaddr_cell; congruence.
  - exists m'. split; [exact Hrun|]. split.
    + intros ix Hix. destruct (Hres (cell r ix, map (fun x => cell x ix) xs)) as (v & us & A & B & C).
      { unfold entries. apply in_map_iff. exists ix. split; [reflexivity|]. now apply in_all_indices. }
      cbn in A, B, C. exists v, us. rewrite !elem_cell by assumption. repeat split; try assumption.
      eapply loads_elems; [|exact Hix|exact B]. eapply Forall_impl; [|exact Hxs]. cbn. unfold vwf. tauto.
    + intros b a Hna. apply (Hrest (b, a)). intro Hin. apply in_map_iff in Hin as (e & E & Hin).
      apply in_map_iff in Hin as (ix & <- & Hix). apply in_all_indices in Hix. cbn in E.
      apply (Hna ix Hix). rewrite vaddr_cell by assumption. now f_equal.
Qed.

(* ---- address lists of the individual loops ---- *)
Lemma mapM_ok {A B} (f : A -> res B) g l : Forall (fun a => f a = Ok (g a)) l -> mapM f l = Ok (map g l).
Proof. induction 1 as [|a l Ha Hl IH]; cbn; [reflexivity|]. rewrite Ha, IH. reflexivity. Qed.

Lemma each_run {V} (f : V -> list V -> V) r xs m : vwf r -> vdims r <> [] ->
  Forall (fun x => vwf x /\ vdims x = vdims r) xs -> each f r xs m = run f (entries r xs) m.
Proof.
  intros [Hl Hn] Hne Hxs. unfold each, run, entries. rewrite foreach_index_fold by assumption.
  rewrite foldM_map. apply foldM_ext. intros ix s Hix. apply in_all_indices in Hix.
  rewrite vaddr_cell by assumption. cbn.
  rewrite (mapM_ok _ (fun x => cell x ix)); [reflexivity|].
  eapply Forall_impl; [|exact Hxs]. intros x [[Lx _] Dx]. apply vaddr_cell; congruence.
Qed.

Lemma flat_run {V} (f : V -> list V -> V) r xs n m :
  flat_loop f r xs n m =
  run f (map (fun i => ((vblk r, voff r + i), map (fun x => (vblk x, voff x + i)) xs)) (zrange n)) m.
Proof. unfold flat_loop, run, forZ. now rewrite foldM_map. Qed.

Lemma loops1_run {V} (f : V -> list V -> V) b dims rs ro m : length rs = length dims ->
  loops1 dims rs ro (fun a => rmw f (b, a) []) m =
  run f (map (fun o => ((b, ro + o), [])) (map (dot rs) (all_indices dims))) m.
Proof.
  revert rs ro m; induction dims as [|n dims IH]; intros [|r0 rs] ro m L; try discriminate.
  - cbn. rewrite Z.add_0_r. destruct (rmw _ _ _ _); reflexivity.
  - injection L as L. cbn [loops1 all_indices]. unfold forZ.
    rewrite !map_flat_map. unfold run. rewrite foldM_flat_map.
    apply foldM_ext. intros i s _. rewrite IH by assumption. unfold run. f_equal.
    rewrite !map_map. apply map_ext. intro ix. cbn [dot].
    replace (ro + i * r0 + dot rs ix) with (ro + (r0 * i + dot rs ix)) by ring. reflexivity.
Qed.
Lemma loops2_run {V} (f : V -> list V -> V) b c dims rs xs ro xo m :
  length rs = length dims -> length xs = length dims ->
  loops2 dims rs xs ro xo (fun a a' => rmw f (b, a) [(c, a')]) m =
  run f (map (fun ix => ((b, ro + dot rs ix), [(c, xo + dot xs ix)])) (all_indices dims)) m.
Proof.
  revert rs xs ro xo m; induction dims as [|n dims IH]; intros [|r0 rs] [|x0 xs] ro xo m L L'; try discriminate.
  - cbn. rewrite !Z.add_0_r. destruct (rmw _ _ _ _); reflexivity.
  - injection L as L. injection L' as L'. cbn [loops2 all_indices]. unfold forZ.
    rewrite !map_flat_map. unfold run. rewrite foldM_flat_map.
    apply foldM_ext. intros i s _. rewrite IH by assumption. unfold run. f_equal.
    rewrite !map_map. apply map_ext. intro ix. cbn [dot].
    replace (ro + i * r0 + dot rs ix) with (ro + (r0 * i + dot rs ix)) by ring.
    replace (xo + i * x0 + dot xs ix) with (xo + (x0 * i + dot xs ix)) by ring. reflexivity.
Qed.

(* ---- contiguous layouts, zero strides allowed on sides of length 1 ---- *)
Lemma remaining_addrs dims s : length s = length dims -> nonneg s ->
  Forall (fun p => snd p = 0 -> fst p = 1) (combine dims s) ->
  addrs (axes dims s) = addrs (remaining dims s : list (Z * ZO)).
Proof.
  revert s; induction dims as [|d ds IH]; intros [|x s] L Hn F; try discriminate; [reflexivity|].
  injection L as L. cbn [axes combine remaining] in *. inversion Hn; subst. inversion F; subst. cbn in *.
  destruct (0 <? x) eqn:E.
  - fold (axes ds s). now rewrite IH.
  - fold (axes ds s). replace d with 1 by (symmetry; auto with zarith; lia).
    change (addrs (((1, x) : Z * ZO) :: axes ds s) = addrs (remaining ds s : list (Z * ZO))).
    rewrite addrs_one. now apply IH.
Qed.
Lemma remaining_prod dims s : length s = length dims -> nonneg s ->
  Forall (fun p => snd p = 0 -> fst p = 1) (combine dims s) ->
  fold_right Z.mul 1 (map fst (remaining dims s)) = prod dims.
Proof.
  revert s; induction dims as [|d ds IH]; intros [|x s] L Hn F; try discriminate; [reflexivity|].
  injection L as L. cbn [remaining combine] in *. inversion Hn; subst. inversion F; subst. cbn in *.
  rewrite prod_cons. destruct (0 <? x) eqn:E.
  - cbn. now rewrite IH.
  - replace d with 1 by (symmetry; auto with zarith; lia). rewrite IH by assumption. lia.
Qed.
Lemma remaining_extent dims s b : length s = length dims -> nonneg s -> 0 <= b ->
  Forall (fun p => snd p * fst p <= b) (remaining dims s) ->
  Forall (fun p => snd p * fst p <= b) (combine dims s).
Proof.
  revert s; induction dims as [|d ds IH]; intros [|x s] L Hn Hb F; try discriminate; [constructor|].
  injection L as L. cbn [remaining combine] in *. inversion Hn; subst.
  destruct (0 <? x) eqn:E.
  - inversion F; subst. constructor; [assumption|now apply IH].
  - constructor; [cbn; replace x with 0 by lia; lia|now apply IH].
Qed.
Lemma remaining_sub dims s p : In p (remaining dims s) -> In p (combine dims s).
Proof.
  revert s; induction dims as [|d ds IH]; intros [|x s]; cbn; try tauto.
  destruct (0 <? x); cbn; [intros [|]; auto|auto].
Qed.
Lemma remaining_ne dims s : length s = length dims -> Exists (fun x => 0 < x) s -> remaining dims s <> [].
Proof.
  revert s; induction dims as [|d ds IH]; intros [|x s] L H; try discriminate; [inversion H|].
  injection L as L. cbn. destruct (0 <? x) eqn:E; [discriminate|].
  apply IH; [assumption|]. inversion H; subst; [lia|assumption].
Qed.

Lemma contiguous_gen s dims : positive dims -> nonneg s -> length s = length dims ->
  Forall (fun p => snd p = 0 -> fst p = 1) (combine dims s) ->
  is_contiguous s dims = Ok true ->
  Permutation (map (dot s) (all_indices dims)) (zrange (prod dims)) /\
  (dims = [] \/ Exists (fun x => 0 < x) s -> memsize s dims = Ok (prod dims)).
Proof.
  intros Hd Hs L F E.
  pose proof E as E0.
  unfold is_contiguous in E.
  destruct (is_regular s dims) as [r| |] eqn:Er; cbn in E; try discriminate.
  destruct r.
  - apply is_regular_iff in Er; [|assumption].
    assert (Hp : positive s).
    { subst s. clear -Hd. induction Hd as [|d ds Hd Hds IH]; [constructor|].
      rewrite strides_of_cons. constructor; [|exact IH]. pose proof (prod_pos ds Hds). lia. }
    split; [now apply contiguous_solid|]. intros _. now apply memsize_contiguous.
  - injection E as E. destruct (contig_loop_ok (npos s) 1 s dims) as (ax & P & Hc); try assumption; try lia; try reflexivity.
    assert (Ep : fold_right Z.mul 1 (map fst ax) = prod dims).
    { rewrite <- (remaining_prod dims s L Hs F). apply Permutation_map with (f := fst) in P.
      clear -P. induction P; cbn; try congruence; lia. }
    assert (Fp : Forall (fun p => 0 < fst p) ax).
    { pose proof (remaining_fst s dims Hd) as F0. rewrite P in F0. exact F0. }
    split.
    + rewrite <- addrs_axes by assumption. rewrite remaining_addrs by assumption.
      rewrite (addrs_perm ZO _ _ P). rewrite (chain_addrs ax 1); [|eapply Forall_impl; [|exact Fp]; cbn; lia|exact Hc].
      rewrite Ep. erewrite map_ext; [rewrite map_id; reflexivity|]. intro; lia.
    + intros [->|Hex].
      { destruct s; [reflexivity|discriminate]. }
      pose proof (remaining_ne dims s L Hex) as Hne.
      assert (ax <> []) by (intros ->; apply Hne; apply Permutation_nil; now symmetry).
      unfold memsize. rewrite L, Nat.eqb_refl. cbn [assrt]. rewrite asize_prod.
      pose proof (prod_pos dims Hd) as Hp.
      destruct s as [|s0 ss]; [destruct dims; [reflexivity|discriminate]|].
      replace (prod dims =? 0) with false by lia. f_equal.
      destruct (chain_extent ax 1) as [C1 C2]; try assumption; try lia.
      rewrite Ep, Z.mul_1_l in C1, C2.
      apply Z.le_antisymm.
      * apply max_extent_spec; [assumption|]. split; [lia|].
        apply remaining_extent; [assumption|assumption|lia|]. rewrite P. exact C1.
      * assert (forall b, Forall (fun p => snd p * fst p <= b) (combine dims (s0 :: ss)) -> prod dims <= b) as G.
        { intros b Hb. rewrite <- P in C2. apply Exists_exists in C2 as (p & Hin & Hp2).
          apply remaining_sub in Hin. rewrite Forall_forall in Hb. specialize (Hb p Hin). lia. }
        apply G. apply (max_extent_spec _ _ 0); [assumption|lia].
Qed.

(* distinct cells force sides of zero stride to have length 1 *)
Lemma distinct_zero v : vwf v -> positive (vdims v) -> nonneg (vstr v) -> distinct_cells v ->
  Forall (fun p => snd p = 0 -> fst p = 1) (combine (vdims v) (vstr v)).
Proof.
  intros [L Hn] Hp Hs Hd. apply Forall_forall. intros [d s] Hin E. cbn in *. subst s.
  apply In_nth_error in Hin as [k Hk].
  assert (Hk1 : nth_error (vdims v) k = Some d /\ nth_error (vstr v) k = Some 0).
  { clear -Hk. revert Hk. generalize (vstr v). generalize (vdims v). induction k; intros [|x l] [|y l'] H; cbn in *; try discriminate.
    - injection H as -> ->. auto.
    - now apply IHk. }
  destruct Hk1 as [Hkd Hks].
  destruct (Z_le_gt_dec d 1) as [|Hgt].
  { assert (In d (vdims v)) by (eapply nth_error_In; eassumption).
    unfold positive in Hp. rewrite Forall_forall in Hp. specialize (Hp d H). lia. }
  exfalso.
  pose (z := repeat 0 (length (vdims v))).
  assert (Hz : in_range z (vdims v)).
  { unfold z. clear -Hp. induction Hp as [|x l Hx Hl IH]; cbn; constructor; [lia|exact IH]. }
  assert (Hz1 : in_range (set_nth k 1 z) (vdims v)).
  { clear -Hz Hkd Hgt. revert k Hkd. induction Hz as [|a x l l' Ha Hl IH]; intros [|k] H; cbn in *; try discriminate; constructor; auto.
    - injection H as ->. lia.
    - now apply IH. }
  assert (E : z = set_nth k 1 z).
  { apply Hd; [assumption|assumption|]. rewrite !vaddr_cell by assumption. unfold cell.
    assert (E1 : dot (vstr v) z = dot (vstr v) (set_nth k 1 z)); [|now rewrite E1].
    clear -Hks. unfold z. generalize (length (vdims v)). clear z. generalize dependent (vstr v).
    clear. induction k; intros [|s l] H [|n]; cbn in *; try discriminate; try reflexivity.
    - injection H as ->. lia.
    - rewrite <- (IHk l H n). reflexivity. }
  assert (Hkl : (k < length (vdims v))%nat) by (apply nth_error_Some; congruence).
  apply (f_equal (fun l => nth k l 5)) in E.
  clear -E Hkl. unfold z in E. revert E Hkl. generalize (length (vdims v)). clear.
  induction k; intros [|n]; cbn; try lia. intros. apply (IHk n); [assumption|lia].
Qed.

(* ---- ordering is a permutation of the positions ---- *)
Lemma argmin_aux_spec v best bi i pre : (bi < length pre)%nat -> i = length pre -> nth bi pre 0 = best ->
  (forall k, (k < length pre)%nat -> best <= nth k pre 0) ->
  let j := argmin_aux best bi i v in
  (j < length (pre ++ v))%nat /\ forall k, (k < length (pre ++ v))%nat -> nth j (pre ++ v) 0 <= nth k (pre ++ v) 0.
Proof.
  revert best bi i pre. induction v as [|x v IH]; intros best bi i pre Hb Hi Hn Hmin; cbn.
  - rewrite app_nil_r. subst best. auto.
  - replace (pre ++ x :: v) with ((pre ++ [x]) ++ v) by now rewrite <- app_assoc.
    destruct (x <? best) eqn:E.
    + apply IH.
      * rewrite app_length. cbn. lia.
      * rewrite app_length. cbn. lia.
      * subst i. rewrite app_nth2 by lia. now rewrite Nat.sub_diag.
      * intros k Hk. rewrite app_length in Hk. cbn in Hk.
        destruct (Nat.lt_ge_cases k (length pre)).
        -- rewrite app_nth1 by assumption. specialize (Hmin k H). lia.
        -- replace k with (length pre) by lia. rewrite app_nth2 by lia. rewrite Nat.sub_diag. cbn. lia.
    + apply IH.
      * rewrite app_length. cbn. lia.
      * rewrite app_length. cbn. lia.
      * rewrite app_nth1 by assumption. assumption.
      * intros k Hk. rewrite app_length in Hk. cbn in Hk.
        destruct (Nat.lt_ge_cases k (length pre)).
        -- rewrite app_nth1 by assumption. now apply Hmin.
        -- replace k with (length pre) by lia. rewrite app_nth2 by lia. rewrite Nat.sub_diag. cbn. lia.
Qed.
Lemma argmin_spec v : v <> [] ->
  (argmin v < length v)%nat /\ forall k, (k < length v)%nat -> nth (argmin v) v 0 <= nth k v 0.
Proof.
  destruct v as [|x v]; [congruence|]. intros _. unfold argmin.
  apply (argmin_aux_spec v x 0 1 [x]); cbn; auto; try lia.
  intros k Hk. replace k with 0%nat by lia. lia.
Qed.
Lemma set_nth_length {A} i (x : A) l : length (set_nth i x l) = length l.
Proof. revert i; induction l; intros [|i]; cbn; auto. Qed.
Lemma nth_set_nth {A} i k (x d : A) l : (i < length l)%nat ->
  nth k (set_nth i x l) d = if Nat.eq_dec k i then x else nth k l d.
Proof.
  revert i k; induction l as [|a l IH]; intros i k H; cbn in H; [lia|].
  destruct i, k; cbn [set_nth nth].
  - reflexivity.
  - reflexivity.
  - reflexivity.
  - rewrite IH by lia. destruct (Nat.eq_dec k i), (Nat.eq_dec (S k) (S i)); try reflexivity; lia.
Qed.

(* the positions still to be taken are those whose value is below INT_MAX *)
Definition live (v : list Z) : list nat := filter (fun k => nth k v 0 <? INT_MAX) (seq 0 (length v)).
Lemma in_live v k : In k (live v) <-> (k < length v)%nat /\ nth k v 0 < INT_MAX.
Proof. unfold live. rewrite filter_In, in_seq. split; intros [A B]; split; lia. Qed.
Lemma live_nodup v : NoDup (live v).
Proof. apply NoDup_filter, seq_NoDup. Qed.
Lemma ordering_loop_live n v : length (live v) = n -> Permutation (ordering_loop n v) (live v).
Proof.
  revert v; induction n as [|n IH]; intros v Hn.
  - destruct (live v); [reflexivity|discriminate].
  - cbn. destruct (live v) as [|k0 l0] eqn:El; [discriminate|].
    assert (Hk0 : In k0 (live v)) by (rewrite El; now left). apply in_live in Hk0 as [Hk0 Hv0].
    destruct (argmin_spec v) as [Hj Hmin]; [destruct v; [cbn in Hk0; lia|discriminate]|].
    set (j := argmin v) in *.
    assert (Hjl : In j (live v)) by (apply in_live; split; [assumption|]; specialize (Hmin k0 Hk0); lia).
    set (v' := set_nth j INT_MAX v).
    assert (Hset : forall k, In k (live v') <-> In k (live v) /\ k <> j).
    { intro k. rewrite !in_live. unfold v'. rewrite set_nth_length, nth_set_nth by assumption.
      destruct (Nat.eq_dec k j); [subst|]; split; intuition; lia. }
    assert (P : Permutation (live v) (j :: live v')).
    { apply NoDup_Permutation; [apply live_nodup| |].
      - constructor; [|apply live_nodup]. rewrite Hset. tauto.
      - intro k. cbn. rewrite Hset. destruct (Nat.eq_dec k j); [subst; tauto|].
        split; [tauto|]. intros [->|]; tauto. }
    rewrite <- El, P. constructor. apply IH.
    apply Permutation_length in P. rewrite El in P. cbn in P, Hn. lia.
Qed.
Lemma ordering_perm s : Forall (fun x => x < INT_MAX) s -> Permutation (ordering s) (seq 0 (length s)).
Proof.
  intro H. assert (E : live s = seq 0 (length s)).
  { unfold live. rewrite <- (filter_ext_in (fun _ => true)); [clear; induction (seq 0 (length s)); cbn; congruence|].
    intros k Hk. apply in_seq in Hk. rewrite Forall_forall in H.
    assert (nth k s 0 < INT_MAX) by (apply H, nth_In; lia). lia. }
  unfold ordering. rewrite ordering_loop_live; rewrite E; [reflexivity|apply seq_length].
Qed.

(* ---- scrunch and co_scrunch keep the multiset of (pairs of) addresses ---- *)
Lemma addrs2_axes (ax : list (Z * Z2O)) :
  addrs ax = map (fun ix => (dot (map (fun p => fst (snd p)) ax) ix, dot (map (fun p => snd (snd p)) ax) ix))
                 (all_indices (map fst ax)).
Proof.
  induction ax as [|[n [s1 s2]] ax IH]; [reflexivity|].
  cbn [addrs all_indices map fst snd]. rewrite IH. rewrite map_flat_map. apply flat_map_ext_in. intros i _.
  rewrite !map_map. apply map_ext. intro ix. cbn. f_equal; ring.
Qed.
Lemma addrs1_axes (ax : list (Z * ZO)) :
  addrs ax = map (dot (map snd ax)) (all_indices (map fst ax)).
Proof.
  induction ax as [|[n s1] ax IH]; [reflexivity|].
  cbn [addrs all_indices map fst snd]. rewrite IH. rewrite map_flat_map. apply flat_map_ext_in. intros i _.
  rewrite !map_map. apply map_ext. intro ix. cbn. ring.
Qed.
Lemma co_merge_addrs (ax : list (Z * Z2O)) d xs ys : 0 <= d -> Forall (fun p => 0 <= fst p) ax ->
  Permutation (addrs (co_merge d xs ys ax : list (Z * Z2O))) (addrs (((d, (xs, ys)) : Z * Z2O) :: ax)).
Proof.
  intros Hd H; revert d xs ys Hd. induction H as [|[d' [xs' ys']] ax Hd' Hax IH]; intros d xs ys Hd; [reflexivity|].
  cbn [co_merge]. cbn in Hd'.
  destruct ((xs' =? xs * d) && (ys' =? ys * d)) eqn:E.
  - rewrite IH by nia. rewrite addrs_swap.
    replace (xs' , ys') with (osc d ((xs, ys) : Z2O)) by (cbn; f_equal; lia).
    rewrite addrs_fuse by assumption. replace (d * d') with (d' * d) by ring. reflexivity.
  - apply addrs_skip. now apply IH.
Qed.
Lemma merge_addrs (ax : list (Z * ZO)) d s : 0 <= d -> Forall (fun p => 0 <= fst p) ax ->
  Permutation (addrs (merge d s ax : list (Z * ZO))) (addrs (((d, s) : Z * ZO) :: ax)).
Proof.
  intros Hd H; revert d s Hd. induction H as [|[d' s'] ax Hd' Hax IH]; intros d s Hd; [reflexivity|].
  cbn [merge]. cbn in Hd'.
  destruct (s' =? s * d) eqn:E.
  - rewrite IH by nia. rewrite addrs_swap.
    replace s' with (osc d (s : ZO)) by (cbn; lia).
    rewrite addrs_fuse by assumption. replace (d * d') with (d' * d) by ring. reflexivity.
  - apply addrs_skip. now apply IH.
Qed.
Lemma co_merge_fst ax d xs ys : 0 <= d -> Forall (fun p => 0 <= fst p) ax ->
  Forall (fun p => 0 <= fst p) (co_merge d xs ys ax).
Proof.
  intros Hd H; revert d xs ys Hd. induction H as [|[d' [xs' ys']] ax Hd' Hax IH]; intros d xs ys Hd; cbn.
  - repeat constructor; assumption.
  - cbn in Hd'. destruct (_ && _); [apply IH; nia|]. constructor; [assumption|now apply IH].
Qed.

Lemma map_nth_seq {A} (l : list A) (d : A) : map (fun k => nth k l d) (seq 0 (length l)) = l.
Proof.
  induction l as [|a l IH]; [reflexivity|]. cbn. f_equal. rewrite <- seq_shift, map_map. exact IH.
Qed.
Lemma vget_nth {A} (l : list A) k d : (k < length l)%nat -> vget l k = Ok (nth k l d).
Proof. intro H. unfold vget. rewrite (nth_error_nth' l d H). reflexivity. Qed.
Lemma combine_nth' {A B} (l : list A) (l' : list B) k x y : length l = length l' ->
  nth k (combine l l') (x, y) = (nth k l x, nth k l' y).
Proof. apply combine_nth. Qed.

Lemma eqlb_refl l : eqlb l l = true.
Proof. induction l; cbn; [reflexivity|]. rewrite Z.eqb_refl. assumption. Qed.
Lemma eqlb_eq a b : eqlb a b = true <-> a = b.
Proof.
  split; [|intros ->; apply eqlb_refl].
  revert b; induction a as [|x a IH]; intros [|y b] H; cbn in H; try discriminate; [reflexivity|].
  apply andb_prop in H as [H1 H2]. f_equal; [lia|now apply IH].
Qed.

Lemma co_scrunch_ok r x : vwf r -> vwf x -> vdims x = vdims r ->
  Forall (fun s => s < INT_MAX) (vstr r) ->
  exists ax : list (Z * Z2O),
    co_scrunch r x = Ok (View (vblk r) (voff r) (map fst ax) (map (fun p => fst (snd p)) ax),
                         View (vblk x) (voff x) (map fst ax) (map (fun p => snd (snd p)) ax)) /\
    Permutation (addrs ax) (map (fun ix => (dot (vstr r) ix, dot (vstr x) ix)) (all_indices (vdims r))) /\
    Forall (fun p => 0 <= fst p) ax /\ (vdims r <> [] -> ax <> []).
Proof.
  intros [Lr Nr] [Lx _] Dx Hmax. unfold co_scrunch. rewrite Dx, eqlb_refl. cbn [assrt].
  pose (full := combine (vdims r) (combine (vstr r) (vstr x)) : list (Z * (Z * Z))).
  assert (Lf : length full = length (vstr r)).
  { unfold full. rewrite !combine_length. rewrite Dx in Lx. lia. }
  pose (g := fun k => nth k full (0, (0, 0))).
  pose proof (ordering_perm (vstr r) Hmax) as P.
  assert (Hg : forall k, (k < length (vstr r))%nat ->
     (do xs <- vget (vstr r) k; do ys <- vget (vstr x) k; do d <- vget (vdims r) k; Ok (d, (xs, ys))) = Ok (g k)).
  { intros k Hk. rewrite (vget_nth _ k 0) by assumption. cbn.
    rewrite (vget_nth _ k 0) by (rewrite Dx in Lx; lia). cbn.
    rewrite (vget_nth _ k 0) by lia. cbn. unfold g, full.
    rewrite combine_nth', combine_nth'; [reflexivity|rewrite Dx in Lx; lia|].
    rewrite combine_length. rewrite Dx in Lx; lia. }
  rewrite (mapM_ok _ g).
  2:{ apply Forall_forall. intros k Hk. apply Hg. rewrite P in Hk. apply in_seq in Hk. lia. }
  cbn [bind]. set (ax0 := map g (ordering (vstr r))).
  assert (P0 : Permutation ax0 full).
  { unfold ax0. rewrite P, <- Lf. unfold g. now rewrite map_nth_seq. }
  assert (F0 : Forall (fun p => 0 <= fst p) ax0).
  { rewrite P0. apply Forall_forall. intros [a b] Hin. unfold full in Hin. apply in_combine_l in Hin. cbn.
    unfold nonneg in Nr. rewrite Forall_forall in Nr. now apply Nr. }
  clearbody ax0.
  exists (rev (co_merge_all ax0)). split; [reflexivity|].
  assert (E : Permutation (addrs (co_merge_all ax0 : list (Z * Z2O))) (addrs (ax0 : list (Z * Z2O)))).
  { destruct ax0 as [|[d [xs ys]] ax0]; [reflexivity|]. inversion F0; subst. cbn in *. now apply co_merge_addrs. }
  assert (F1 : Forall (fun p => 0 <= fst p) (co_merge_all ax0)).
  { destruct ax0 as [|[d [xs ys]] ax0]; [constructor|]. inversion F0; subst. now apply co_merge_fst. }
  split; [|split].
  - rewrite (addrs_perm Z2O _ _ (Permutation_sym (Permutation_rev _))).
    rewrite E, (addrs_perm Z2O _ _ P0). rewrite addrs2_axes. unfold full.
    assert (E1 : map (fun p : Z * (Z * Z) => fst (snd p)) (combine (vdims r) (combine (vstr r) (vstr x))) = vstr r).
    { rewrite <- (map_map snd fst). rewrite combine_snd by (rewrite combine_length; rewrite Dx in Lx; lia).
      apply combine_fst. rewrite Dx in Lx; lia. }
    assert (E2 : map (fun p : Z * (Z * Z) => snd (snd p)) (combine (vdims r) (combine (vstr r) (vstr x))) = vstr x).
    { rewrite <- (map_map snd snd). rewrite combine_snd by (rewrite combine_length; rewrite Dx in Lx; lia).
      apply combine_snd. rewrite Dx in Lx; lia. }
    assert (E3 : map fst (combine (vdims r) (combine (vstr r) (vstr x))) = vdims r).
    { apply combine_fst. rewrite combine_length; rewrite Dx in Lx; lia. }
    cbn [oc Z2O ProdO ZO] in *. rewrite E1, E2, E3. reflexivity.
  - now apply Forall_rev.
  - intros Hne Hr. apply (f_equal (@length _)) in Hr. rewrite rev_length in Hr.
    destruct ax0 as [|[d [xs ys]] ax0].
    + apply Permutation_nil in P0. apply Hne. unfold full in P0.
      apply (f_equal (@length _)) in P0. fold full in P0. rewrite Lf in P0. cbn in P0.
      destruct (vdims r); [reflexivity|cbn in Lr; lia].
    + cbn in Hr. clear -Hr. revert d xs ys Hr. induction ax0 as [|[d' [a b]] l IH]; intros d xs ys; cbn; [discriminate|].
      destruct (_ && _); [apply IH|discriminate].
Qed.

Lemma add_loops_run {V} (f : V -> list V -> V) b c ro xo (ax : list (Z * Z2O)) m :
  Forall (fun p => 0 <= fst p) ax -> ax <> [] ->
  add_loops f (View b ro (map fst ax) (map (fun p => fst (snd p)) ax))
              (View c xo (map fst ax) (map (fun p => snd (snd p)) ax)) m =
  run f (map (fun p => ((b, ro + fst p), [(c, xo + snd p)])) (addrs ax)) m.
Proof.
  intros Fx Hne.
  assert (E1 : loops2 (map fst ax) (map (fun p => fst (snd p)) ax) (map (fun p => snd (snd p)) ax) ro xo
            (fun a a' => rmw f (b, a) [(c, a')]) m =
          run f (map (fun p => ((b, ro + fst p), [(c, xo + snd p)])) (addrs ax)) m).
  { rewrite loops2_run by now rewrite !map_length. f_equal. rewrite addrs2_axes, map_map. reflexivity. }
  assert (E2 : each f (View b ro (map fst ax) (map (fun p => fst (snd p)) ax))
              [View c xo (map fst ax) (map (fun p => snd (snd p)) ax)] m =
          run f (map (fun p => ((b, ro + fst p), [(c, xo + snd p)])) (addrs ax)) m).
  { rewrite each_run.
    - f_equal. unfold entries. rewrite addrs2_axes, map_map. reflexivity.
    - split; cbn; [now rewrite !map_length|]. unfold nonneg. now apply Forall_map.
    - destruct ax; [congruence|discriminate].
    - repeat constructor; cbn; [now rewrite !map_length|]. unfold nonneg. now apply Forall_map. }
  unfold add_loops. cbn [vdims vstr voff vblk].
  destruct (length (map fst ax)) as [|[|[|[|[|n]]]]] eqn:El; try exact E1; try exact E2.
  destruct ax; [congruence|discriminate].
Qed.

Lemma entries1_addrs r x :
  entries r [x] = map (fun p => ((vblk r, voff r + fst p), [(vblk x, voff x + snd p)]))
                      (map (fun ix => (dot (vstr r) ix, dot (vstr x) ix)) (all_indices (vdims r))).
Proof. unfold entries. rewrite map_map. reflexivity. Qed.

Lemma regular_nil : is_contiguous [] [] = Ok true. Proof. reflexivity. Qed.

Lemma dispatch2_ok {V} (f : V -> list V -> V) r x m :
  plain_layout r -> vwf x -> vdims x = vdims r ->
  distinct_cells r -> readable m r -> readable m x -> no_clobber r x ->
  exists m', dispatch2 f r x m = Ok m' /\ elementwise f r [x] m m'.
Proof.
  intros (Lr & Nr & Sr & Hpos) Wx Dx Hdist Rr Rx Hnc.
  assert (Wr : vwf r) by (split; assumption).
  assert (Hxs : Forall (fun x => vwf x /\ vdims x = vdims r /\ readable m x /\ no_clobber r x) [x])
    by (constructor; [tauto|constructor]).
  unfold dispatch2. rewrite asize_prod. destruct (prod (vdims r) =? 0) eqn:E0.
  { destruct (elementwise_of_run f r [x] m []) as (m' & A & B); try assumption.
    - unfold entries. rewrite all_indices_empty by (try assumption; lia). reflexivity.
    - exists m. split; [reflexivity|]. cbn in A. injection A as ->. exact B. }
  assert (Hp : positive (vdims r)).
  { apply prod_pos_positive; [assumption|]. pose proof (prod_nonneg _ Nr). lia. }
  assert (Ns : nonneg (vstr r)) by (eapply Forall_impl; [|exact Sr]; cbn; lia).
  assert (Ms : Forall (fun s => s < INT_MAX) (vstr r)) by (eapply Forall_impl; [|exact Sr]; cbn; lia).
  pose proof (distinct_zero r Wr Hp Ns Hdist) as Hz.
  destruct (is_contiguous (vstr r) (vdims r)) as [c| |] eqn:Ec.
  2,3: exfalso; unfold is_contiguous, is_regular in Ec; rewrite Lr, Nat.eqb_refl in Ec; cbn in Ec;
       destruct (regular_aux _ _); discriminate.
  cbn [bind]. destruct (c && eqlb (vstr r) (vstr x)) eqn:Eb.
  - apply andb_prop in Eb as [-> Eq]. apply eqlb_eq in Eq.
    destruct (contiguous_gen (vstr r) (vdims r) Hp Ns Lr Hz Ec) as [P Hm].
    rewrite <- Eq, Dx, Hm by assumption. cbn [bind]. rewrite flat_run.
    apply elementwise_of_run; try assumption.
    unfold entries. rewrite <- P, map_map. cbn [map]. unfold cell. rewrite <- Eq. reflexivity.
  - destruct (co_scrunch_ok r x Wr Wx Dx Ms) as (ax & -> & P & Fx & Hne). cbn [bind].
    rewrite add_loops_run; [|assumption|].
    + apply elementwise_of_run; try assumption. rewrite entries1_addrs. now apply Permutation_map.
    + apply Hne. intros E. destruct (vstr r) eqn:Es; [|rewrite E in Lr; discriminate].
      rewrite E in Ec. cbn in Ec. injection Ec as <-. cbn in Eb.
      destruct Wx as [Lx _]. rewrite Dx, E in Lx. destruct (vstr x); discriminate.
Qed.
