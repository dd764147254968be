(* Proofs_Groups3.v -- strides that form one progression, offsets in another layout, range checks. *)
From Coq Require Import Sorted.
From Verif Require Import Base BaseFacts Model_Index Model_View Model_Tensor Model_Groups Spec_Index Spec_View Spec_Groups Proofs_Index Proofs_Tensor Proofs_Mask2 Proofs_Groups Proofs_Groups2.
Local Open Scope Z_scope.

Definition by_key {A} (key : A -> Z) (a b : A) : Prop := key a <= key b.
Lemma sorted_ext {A} (R Q : A -> A -> Prop) l : (forall a b, In a l -> In b l -> R a b -> Q a b) -> StronglySorted R l -> StronglySorted Q l.
Proof.
  induction l as [|x l IH]; intros H S; constructor; inversion S; subst.
  - apply IH; [|assumption]. intros a b Ha Hb. apply H; now right.
  - rewrite Forall_forall in *. intros b Hb. apply H; [now left|now right|now apply H3].
Qed.
Lemma loop_sorted n v : length (live v) = n -> StronglySorted (by_key (fun k => nth k v 0)) (ordering_loop n v).
Proof.
  revert v; induction n as [|n IH]; intros v Hn; [constructor|].
  cbn. destruct (live v) as [|k0 l0] eqn:El; [discriminate|].
  assert (Hk0 : In k0 (live v)) by (rewrite El; now left). apply in_live in Hk0 as [Hk0 Hv0].
  destruct (argmin_spec v) as [Hj Hmin]; [destruct v; [cbn in Hk0; lia|discriminate]|].
  set (j := argmin v) in *.
  assert (Hjl : In j (live v)) by (apply in_live; split; [assumption|]; specialize (Hmin k0 Hk0); lia).
  set (v' := set_nth j INT_MAX v).
  assert (Hset : forall k, In k (live v') <-> In k (live v) /\ k <> j).
  { intro k. rewrite !in_live. unfold v'. rewrite set_nth_length, nth_set_nth by assumption.
    destruct (Nat.eq_dec k j); [subst|]; split; intuition; lia. }
  assert (P : Permutation (live v) (j :: live v')).
  { apply NoDup_Permutation; [apply live_nodup| |].
    - constructor; [|apply live_nodup]. rewrite Hset. tauto.
    - intro k. cbn. rewrite Hset. destruct (Nat.eq_dec k j); [subst; tauto|].
      split; [tauto|]. intros [->|]; tauto. }
  assert (Ln : length (live v') = n) by (apply Permutation_length in P; rewrite El in P; cbn in P, Hn; lia).
  pose proof (ordering_loop_live n v' Ln) as Pr.
  assert (B : forall k, In k (ordering_loop n v') -> (k < length v)%nat /\ nth k v' 0 = nth k v 0).
  { intros k Hk. apply (Permutation_in _ Pr), Hset in Hk as [Hk Nk]. apply in_live in Hk as [Hk _]. split; [assumption|].
    unfold v'. rewrite nth_set_nth by assumption. now destruct (Nat.eq_dec k j). }
  constructor.
  - apply (sorted_ext (by_key (fun k => nth k v' 0))); [|now apply IH]. unfold by_key. intros a b Ha Hb. rewrite (proj2 (B a Ha)), (proj2 (B b Hb)). trivial.
  - apply Forall_forall. intros k Hk. apply Hmin. now apply B.
Qed.
Lemma ordering_sorted s : Forall (fun x => x < INT_MAX) s -> StronglySorted (by_key (fun k => nth k s 0)) (ordering s).
Proof.
  intro H. unfold ordering. apply loop_sorted. assert (P := ordering_perm s H). unfold live. rewrite <- (filter_ext_in (fun _ => true)).
  - assert (G : forall l : list nat, filter (fun _ => true) l = l) by (induction l; cbn; congruence). rewrite G. apply seq_length.
  - intros k Hk. apply in_seq in Hk. rewrite Forall_forall in H. assert (nth k s 0 < INT_MAX) by (apply H, nth_In; lia). lia.
Qed.
Lemma sorted_unique {A} (key : A -> Z) a b : Permutation a b -> StronglySorted (fun x y => key x < key y) a -> StronglySorted (by_key key) b -> a = b.
Proof.
  revert b; induction a as [|x a IH]; intros b P S1 S2; [apply Permutation_nil in P; now subst|].
  destruct b as [|y b]; [apply Permutation_sym, Permutation_nil in P; discriminate|]. inversion S1; inversion S2; subst.
  assert (E : x = y).
  { assert (Hx : In x (y :: b)) by (apply (Permutation_in _ P); now left). assert (Hy : In y (x :: a)) by (apply (Permutation_in _ (Permutation_sym P)); now left).
    destruct Hx as [->|Hx]; [reflexivity|]. destruct Hy as [->|Hy]; [reflexivity|]. rewrite Forall_forall in H2, H6. specialize (H2 y Hy). specialize (H6 x Hx). unfold by_key in H6. lia. }
  subst y. f_equal. apply IH; [now apply Permutation_cons_inv in P|assumption|assumption].
Qed.

(* natural-number positions *)
Definition nc (l : list Z) (p : list nat) : list Z := map (fun k => nth k l 0) p.
Lemma nc_comps l p : nc l p = comps l (map Z.of_nat p).
Proof. unfold nc, comps. rewrite map_map. apply map_ext. intro. now rewrite Nat2Z.id. Qed.
Lemma vget_nth (l : list Z) k : (k < length l)%nat -> vget l k = Ok (nth k l 0).
Proof. intro H. unfold vget. now rewrite (nth_error_nth' l 0). Qed.
Lemma strides_of_snoc s0 A da : strides_of s0 (A ++ [da]) = strides_of (s0 * da) A ++ [s0].
Proof. destruct (strides_of_app s0 A [da]) as (sa & E & _ & ->). rewrite E. unfold prod. cbn [fold_right strides_of]. rewrite Z.mul_1_r. reflexivity. Qed.
Lemma nc_snoc l p a : nc l (p ++ [a]) = nc l p ++ [nth a l 0].
Proof. unfold nc. now rewrite map_app. Qed.
Lemma chains_two s d a b p : chains s d (a :: b :: p) = (do sb <- vget s b; do sa <- vget s a; do da <- vget d a; if negb (sb =? sa * da) then Ok false else chains s d (b :: p)).
Proof. reflexivity. Qed.
Lemma chains_some s d p : length d = length s -> Forall (fun k => (k < length s)%nat) p -> exists b, chains s d p = Ok b.
Proof.
  intro L. induction p as [|a p IH]; intro F; [now exists true|]. inversion F; subst. destruct p as [|b p]; [now exists true|]. inversion H2; subst.
  rewrite chains_two. rewrite !vget_nth by lia. cbn [bind]. destruct (negb _); [now exists false|]. apply IH. assumption.
Qed.
Lemma chains_true s d a p : length d = length s -> Forall (fun k => (k < length s)%nat) (a :: p) -> chains s d (a :: p) = Ok true ->
  nc s (rev (a :: p)) = strides_of (nth a s 0) (nc d (rev (a :: p))).
Proof.
  intro L. revert a; induction p as [|b p IH]; intros a F E; [cbn; reflexivity|]. inversion F; subst. inversion H2; subst.
  rewrite chains_two in E. rewrite !vget_nth in E by lia. cbn [bind] in E. destruct (negb (nth b s 0 =? nth a s 0 * nth a d 0)) eqn:K; [discriminate|].
  change (rev (a :: b :: p)) with (rev (b :: p) ++ [a]). rewrite !nc_snoc, strides_of_snoc. f_equal. rewrite (IH b H2 E). f_equal. lia.
Qed.
Lemma chains_of s d p s0 : length d = length s -> Forall (fun k => (k < length s)%nat) p -> nc s (rev p) = strides_of s0 (nc d (rev p)) -> chains s d p = Ok true.
Proof.
  intro L. revert s0; induction p as [|a p IH]; intros s0 F E; [reflexivity|]. inversion F; subst. destruct p as [|b p]; [reflexivity|]. inversion H2; subst.
  change (rev (a :: b :: p)) with (rev (b :: p) ++ [a]) in E. rewrite !nc_snoc, strides_of_snoc in E. apply app_inj_tail in E as [E Ea].
  rewrite chains_two. rewrite !vget_nth by lia. cbn [bind]. pose proof E as E'. change (rev (b :: p)) with (rev p ++ [b]) in E'. rewrite !nc_snoc, strides_of_snoc in E'. apply app_inj_tail in E' as [_ Eb].
  replace (nth b s 0 =? nth a s 0 * nth a d 0) with true by (rewrite Eb, Ea; lia). cbn [negb]. now apply (IH (s0 * nth a d 0)).
Qed.
Lemma perm_nat_Z p n : Permutation p (seq 0 n) -> Permutation (map Z.of_nat p) (zrange (Z.of_nat n)).
Proof. intro P. unfold zrange. rewrite Nat2Z.id. now apply Permutation_map. Qed.
Lemma dot_one g s ix : Permutation g (zrange (Z.of_nat (length s))) -> length ix = length s -> dot s ix = dot (comps s g) (comps ix g).
Proof. intros P L. rewrite (dot_groups [g] s ix) by (unfold splits; cbn [concat]; rewrite ?app_nil_r; assumption). cbn [map zsum fold_right]. lia. Qed.
Lemma prod_perm a b : Permutation a b -> prod a = prod b.
Proof. induction 1; rewrite ?prod_cons in *; congruence || lia || nia. Qed.
Lemma prod_comps d g : Permutation g (zrange (Z.of_nat (length d))) -> prod (comps d g) = prod d.
Proof. intro P. rewrite <- (comps_all d) at 2. apply prod_perm. unfold comps. now apply Permutation_map. Qed.
Lemma progression_of s d g s0 : length d = length s -> nonneg d -> s0 <> 0 -> Permutation g (zrange (Z.of_nat (length s))) -> comps s g = strides_of s0 (comps d g) ->
  one_progression s d s0 (prod d).
Proof.
  intros L N S0 P E. assert (Pd : Permutation g (zrange (Z.of_nat (length d)))) by now rewrite L.
  assert (B : Forall (fun a => 0 <= a < Z.of_nat (length d)) g) by (apply Forall_forall; intros a Ha; apply in_zrange; now apply (Permutation_in _ Pd)).
  assert (O : forall ix, in_range ix d -> dot s ix = s0 * flat (comps ix g) (comps d g)).
  { intros ix H. rewrite (dot_one g s ix P) by (rewrite (in_range_length _ _ H); lia). rewrite E. apply dot_strides_of. now rewrite !comps_length. }
  assert (Ng : nonneg (comps d g)) by (unfold nonneg, comps in *; apply Forall_forall; intros z Hz; apply in_map_iff in Hz as (a & <- & Ha); rewrite Forall_forall in N; apply N, nth_In;
    rewrite Forall_forall in B; specialize (B a Ha); lia).
  rewrite <- (prod_comps d g Pd). split.
  - intros ix H. exists (flat (comps ix g) (comps d g)). split; [|now apply O]. apply flat_range, comps_range; assumption.
  - intros k Hk. destruct (undo_ok (comps d g) k Ng Hk) as [U1 U2]. destruct (fill_exists g (undo (comps d g) k) _ Pd) as (ix & Lx & Ex).
    { rewrite (in_range_length _ _ U1). apply comps_length. }
    rewrite Nat2Z.id in Lx. assert (H : in_range ix d) by (apply (range_comps ix d g Pd Lx); now rewrite Ex). exists ix. split; [assumption|]. split.
    + rewrite (O ix H), Ex. now f_equal.
    + intros jx J Ej. rewrite (O jx J) in Ej. apply Z.mul_reg_l in Ej; [|assumption].
      apply (comps_inj jx ix g _ Pd); rewrite ?Nat2Z.id; [now apply in_range_length|assumption|]. rewrite Ex. rewrite <- Ej. symmetry. apply undo_flat; [assumption|]. now apply comps_range.
Qed.
Lemma last_rev_hd {A} (a : A) p : vget (a :: p) (length p) = vget (rev (a :: p)) 0.
Proof.
  unfold vget. destruct (@exists_last _ (a :: p) ltac:(discriminate)) as (q & z & E). rewrite E, rev_app_distr. cbn [rev app nth_error].
  assert (Lq : length q = length p) by (apply (f_equal (@length A)) in E; rewrite app_length in E; cbn in E; lia). rewrite nth_error_app2, Lq, Nat.sub_diag by lia. reflexivity.
Qed.
Lemma fuser_run s d : s <> [] -> length d = length s -> Forall (fun x => 0 < x < INT_MAX) s ->
  exists a p, ordering s = a :: p /\ Permutation (a :: p) (seq 0 (length s)) /\
  ((chains s d (a :: p) = Ok false /\ fuser s d = Ok (0, -1)) \/
   (chains s d (a :: p) = Ok true /\ fuser s d = Ok (nth a s 0, prod d) /\ 0 < nth a s 0 /\ comps s (map Z.of_nat (rev (a :: p))) = strides_of (nth a s 0) (comps d (map Z.of_nat (rev (a :: p)))))).
Proof.
  intros Ne L F. assert (F' : Forall (fun x => x < INT_MAX) s) by (eapply Forall_impl; [|exact F]; cbn; lia). pose proof (ordering_perm s F') as P.
  destruct (ordering s) as [|a p] eqn:Eo; [apply Permutation_length in P; rewrite seq_length in P; destruct s; [congruence|discriminate]|].
  exists a, p. split; [reflexivity|]. split; [assumption|]. assert (B : Forall (fun k => (k < length s)%nat) (a :: p)).
  { apply Forall_forall. intros k Hk. apply (Permutation_in _ P), in_seq in Hk. lia. }
  unfold fuser. rewrite Eo. cbn [vget nth_error bind]. change (vget (a :: p) 0) with (@Ok nat a). cbn [bind]. destruct (chains_some s d (a :: p) L B) as [[|] E]; rewrite E; cbn [bind negb]; [right|left; now split].
  pose proof (chains_true s d a p L B E) as C. split; [reflexivity|]. rewrite <- !nc_comps.
  assert (Lp : (length s - 1)%nat = length p) by (apply Permutation_length in P; rewrite seq_length in P; cbn in P; lia). rewrite Lp, last_rev_hd.
  assert (Pa : 0 < nth a s 0) by (rewrite Forall_forall in F; apply F, nth_In; inversion B; assumption).
  split; [|now split]. destruct (rev (a :: p)) as [|l q] eqn:Er; [apply (f_equal (@length nat)) in Er; rewrite rev_length in Er; discriminate|].
  change (vget (l :: q) 0) with (@Ok nat l). cbn [bind]. assert (Hl : (l < length s)%nat) by (rewrite Forall_forall in B; apply B, in_rev; rewrite Er; now left).
  assert (Ha : (a < length s)%nat) by (now inversion B).
  rewrite !vget_nth by lia. cbn [bind]. cbn [nc map] in C. rewrite strides_of_cons in C. injection C as C1 _. unfold cdiv. replace (nth a s 0 =? 0) with false by lia. cbn [bind].
  rewrite C1. f_equal. f_equal. replace (nth a s 0 * prod (map (fun k => nth k d 0) q) * nth l d 0) with (prod (nc d (l :: q)) * nth a s 0) by (unfold nc; cbn [map]; rewrite prod_cons; ring).
  rewrite Z.quot_mul by lia. rewrite nc_comps. apply prod_comps. rewrite L. apply perm_nat_Z. rewrite <- Er, <- Permutation_rev. assumption.
Qed.

(* strictly decreasing strides of a row-major layout whose sides are at least two *)
Lemma strides_dec s0 ds : 0 < s0 -> Forall (fun x => 2 <= x) ds -> StronglySorted (fun x y => y < x) (strides_of s0 ds) /\ Forall (fun x => s0 <= x) (strides_of s0 ds).
Proof.
  intros S0 F. assert (Pp : forall l, Forall (fun x => 2 <= x) l -> 0 < prod l) by (intros l H; apply prod_pos; eapply Forall_impl; [|exact H]; cbn; lia).
  induction F as [|d ds D F IH]; [split; constructor|]. destruct IH as [S B]. rewrite strides_of_cons. split.
  - constructor; [assumption|]. destruct ds as [|d1 ds]; [constructor|]. rewrite strides_of_cons in *. inversion F; subst. inversion S; subst. specialize (Pp ds H2).
    constructor; [rewrite prod_cons; nia|]. eapply Forall_impl; [|exact H4]. cbn. intros z Hz. rewrite prod_cons. nia.
  - constructor; [|assumption]. specialize (Pp ds F). nia.
Qed.
Lemma sorted_map {A} (key : A -> Z) (R : Z -> Z -> Prop) l : StronglySorted R (map key l) -> StronglySorted (fun x y => R (key x) (key y)) l.
Proof. induction l as [|x l IH]; intro S; constructor; inversion S; subst; [now apply IH|]. now rewrite Forall_map in H2. Qed.
Lemma sorted_rev {A} (R : A -> A -> Prop) l : StronglySorted R l -> StronglySorted (fun x y => R y x) (rev l).
Proof.
  induction 1 as [|x l S IH F]; [constructor|]. cbn [rev]. apply StronglySorted_app; [assumption|constructor; constructor|].
  intros a b Ha Hb. destruct Hb as [<-|[]]. rewrite Forall_forall in F. apply F. now apply in_rev.
Qed.

(* offsets *)
Lemma offs_ok s ix d s0 : 0 < s0 -> in_range ix d -> length s = length d -> forall t, offs_loop s (strides_of s0 d) (s0 * flat ix d) t = Ok (t + dot s ix).
Proof.
  intros S0 H. revert s. induction H as [|i n ix d Hi H IH]; intros s L t; [destruct s; [|discriminate]; cbn; f_equal; lia|].
  destruct s as [|a s]; [discriminate|]. rewrite strides_of_cons. cbn [offs_loop flat dot]. pose proof (flat_range _ _ H) as Rg.
  unfold cdiv. replace (s0 * prod d =? 0) with false by nia. cbn [bind].
  assert (Q : Z.quot (s0 * (i * prod d + flat ix d)) (s0 * prod d) = i).
  { rewrite Z.quot_mul_cancel_l by nia. rewrite Z.quot_div_nonneg by nia. symmetry. apply (Z.div_unique _ _ _ (flat ix d)); [left; lia|ring]. }
  rewrite Q. replace (s0 * (i * prod d + flat ix d) - i * (s0 * prod d)) with (s0 * flat ix d) by ring. rewrite (IH s) by (now injection L). f_equal. ring.
Qed.

(* range checks *)
Lemma check_in_range_iff d ix : (check_in_range d ix = Ok tt /\ in_range ix d) \/ (check_in_range d ix = Throw /\ ~ in_range ix d).
Proof.
  unfold check_in_range. destruct (Nat.eqb (length d) (length ix)) eqn:L; cbn [negb].
  - apply Nat.eqb_eq in L. destruct (forallb _ _) eqn:E; [left|right]; (split; [reflexivity|]).
    + revert ix L E; induction d as [|n d IH]; intros [|i ix] L E; cbn in L; try lia; [constructor|]. cbn [combine forallb fst snd] in E. constructor; [lia|]. apply IH; [lia|]. destruct (forallb _ (combine ix d)); [reflexivity|lia].
    + intro H. assert (K : forallb (fun p => negb ((fst p <? 0) || (snd p <=? fst p))) (combine ix d) = true); [|congruence].
      clear -H. induction H as [|i n ix d Hi H IH]; [reflexivity|]. cbn [combine forallb fst snd]. rewrite IH. lia.
  - right. split; [reflexivity|]. intro H. apply in_range_length in H. apply Nat.eqb_neq in L. lia.
Qed.
Lemma check_range_iff d ix : check_range ix d = check_in_range d ix.
Proof.
  unfold check_range, check_in_range. rewrite (Nat.eqb_sym (length ix)). destruct (Nat.eqb (length d) (length ix)) eqn:L; cbn [negb]; [|reflexivity]. apply Nat.eqb_eq in L.
  assert (E : forallb (fun p => negb ((fst p <? 0) || (snd p <=? fst p))) (combine ix d) = forallb (fun i => negb (i <? 0)) ix && forallb (fun p => negb (snd p <=? fst p)) (combine ix d)).
  { revert ix L; induction d as [|n d IH]; intros [|i ix] L; cbn in L; try lia; [reflexivity|]. cbn [combine forallb fst snd]. rewrite IH by lia. destruct (i <? 0), (n <=? i), (forallb (fun i => negb (i <? 0)) ix); reflexivity. }
  rewrite E. destruct (forallb _ ix); reflexivity.
Qed.
Lemma check_args_iff d ix : check_args true d ix = check_in_range d ix.
Proof.
  unfold check_args, check_in_range. cbn [negb]. destruct (Nat.eqb (length d) (length ix)) eqn:L; cbn [negb]; [|reflexivity]. apply Nat.eqb_eq in L.
  assert (G : forall pi pd ix' d', ix = pi ++ ix' -> d = pd ++ d' -> length pi = length pd -> length ix' = length d' ->
     foldM (fun k (_ : unit) => do i <- zget ix k; if i <? 0 then Throw else do n <- zget d k; if n <=? i then Throw else Ok tt) (map (fun j => Z.of_nat (length pi) + j) (zrange (Z.of_nat (length ix')))) tt =
     (if forallb (fun p => negb ((fst p <? 0) || (snd p <=? fst p))) (combine ix' d') then Ok tt else Throw)).
  { intros pi pd ix' d'. revert pi pd d'; induction ix' as [|i ix' IH]; intros pi pd [|n d'] E1 E2 L1 L2; cbn in L2; try lia; [reflexivity|].
    replace (zrange (Z.of_nat (length (i :: ix')))) with (0 :: map Z.succ (zrange (Z.of_nat (length ix')))).
    2:{ unfold zrange. rewrite !Nat2Z.id. cbn [length seq map]. f_equal. rewrite <- seq_shift, !map_map. apply map_ext. intro. lia. }
    cbn [map foldM]. rewrite !zget_nth by (rewrite ?E1, ?E2, app_length; cbn; lia). replace (Z.to_nat (Z.of_nat (length pi) + 0)) with (length pi) by lia. cbn [bind].
    assert (N1 : nth (length pi) ix 0 = i) by (rewrite E1, app_nth2, Nat.sub_diag by lia; reflexivity).
    assert (N2 : nth (length pi) d 0 = n) by (rewrite E2, app_nth2, L1, Nat.sub_diag by lia; reflexivity).
    rewrite N1, N2. cbn [combine forallb fst snd].
    destruct (i <? 0); cbn [orb negb andb bind]; [reflexivity|]. destruct (n <=? i); cbn [bind negb andb]; [reflexivity|].
    rewrite map_map. rewrite <- (IH (pi ++ [i]) (pd ++ [n]) d'); [|now rewrite <- app_assoc|now rewrite <- app_assoc|rewrite !app_length; cbn; lia|lia].
    f_equal. apply map_ext. intro. rewrite app_length. cbn. lia. }
  specialize (G [] [] ix d eq_refl eq_refl eq_refl (eq_sym L)). cbn [length] in G. rewrite (map_ext _ (fun j => j)), map_id in G by (intro; lia). exact G.
Qed.
