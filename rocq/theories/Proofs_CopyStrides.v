(* Proofs_CopyStrides.v -- lemmas on tensors with given strides. *)
From Verif Require Import Base BaseFacts Model_Index Model_View Model_Tensor Model_CopyStrides Spec_Index Spec_View Spec_Tensor Proofs_Index Proofs_View Proofs_Tensor Proofs_Tensor2.
Local Open Scope Z_scope.

(* offset of the last element *)
Definition reach (s dims : list Z) : Z := dot s (map (fun d => d - 1) dims).
Lemma dot_reach s dims ix : Forall (fun a => 0 <= a) s -> in_range ix dims -> 0 <= dot s ix <= reach s dims.
Proof.
  intros N I. revert s N. induction I as [|i d ix ds Hi I IH]; intros s N; [destruct s; cbn; lia|]. destruct N as [|a s Ha N]; [cbn; lia|].
  unfold reach in *. cbn [map dot]. specialize (IH s N). nia.
Qed.
Lemma strided_inside b dims s : length s = length dims -> Forall (fun a => 0 <= a) s -> forall ix, in_range ix dims -> exists a, vaddr (View b 0 dims s) ix = Ok (b, a) /\ 0 <= a /\ a = dot s ix.
Proof.
  intros L N ix I. rewrite vaddr_cell by assumption. unfold cell. cbn [vblk voff vstr]. eexists. split; [reflexivity|]. pose proof (dot_reach s dims ix N I). lia.
Qed.
Lemma strided_distinct b o dims s : length s = length dims -> distinct_cells (View b o dims s) -> forall b' o', distinct_cells (View b' o' dims s).
Proof.
  intros L D b' o' ix jx I J E. cbn [vdims] in *. apply D; try assumption. rewrite !vaddr_cell in * by assumption. unfold cell in *. cbn [vblk voff vstr] in *.
  assert (X : dot s ix = dot s jx); [|now rewrite X]. apply (f_equal (fun q => match q with Ok p => snd p | _ => 0 end)) in E. cbn [snd] in E. lia.
Qed.
Lemma copy_strides_ok {V} (junk : V) b x (m : mem V) n : plain_layout x -> distinct_cells x -> readable m x -> (forall a, m b a = None) -> memsize (vstr x) (vdims x) = Ok n -> (forall ix, in_range ix (vdims x) -> dot (vstr x) ix < n) ->
  exists r m', copy_keeping_strides junk b x m = Ok (r, m') /\ vdims r = vdims x /\ vstr r = vstr x /\
    (forall ix, in_range ix (vdims x) -> elem m' r ix = elem m x ix) /\ disjoint_views r x /\ distinct_cells r /\ (forall b' a, b' <> b -> m' b' a = m b' a).
Proof.
  intros P Dx Rx Hb M H. unfold copy_keeping_strides. rewrite M. cbn [bind]. set (r := View b 0 (vdims x) (vstr x)). set (m0 := alloc junk b n m).
  pose proof P as (Lx & Nx & Sx & Ex). assert (Px : Forall (fun a => 0 <= a) (vstr x)) by (eapply Forall_impl; [|exact Sx]; cbn; lia).
  pose proof (strided_inside b (vdims x) (vstr x) Lx Px) as Hin. assert (Hd : distinct_cells r) by (destruct x as [bx ox dx sx]; exact (strided_distinct bx ox dx sx Lx Dx b 0)).
  assert (Hxb : forall ix, in_range ix (vdims x) -> exists a, vaddr x ix = Ok (vblk x, a) /\ vblk x <> b).
  { intros ix Hix. rewrite vaddr_cell by assumption. unfold cell. eexists. split; [reflexivity|].
    intro E. apply (Rx ix Hix). unfold elem. rewrite vaddr_cell by assumption. cbn. rewrite E. apply Hb. }
  assert (Hdis : disjoint_views r x).
  { intros ix jx Hix Hjx E. destruct (Hin ix Hix) as (a & Ea & _). destruct (Hxb jx Hjx) as (a' & Ea' & Hne). fold r in Ea. rewrite Ea, Ea' in E. injection E as E _. congruence. }
  assert (Hex : forall ix, in_range ix (vdims x) -> elem m0 x ix = elem m x ix).
  { intros ix Hix. destruct (Hxb ix Hix) as (a & Ea & Hne). unfold elem. rewrite Ea. unfold m0. now rewrite alloc_other. }
  destruct (assign_ok r x m0) as (m' & E & A & B).
  - exact P.
  - split; assumption.
  - reflexivity.
  - exact Hd.
  - intros ix Hix. destruct (Hin ix Hix) as (a & Ea & Ha & Ha'). fold r in Ea. unfold elem. rewrite Ea. unfold m0. specialize (H ix Hix). rewrite alloc_in by lia. discriminate.
  - intros ix Hix. rewrite Hex by assumption. now apply Rx.
  - intros ix jx Hix Hjx Eq. exfalso. now apply (Hdis ix jx).
  - exists r, m'. rewrite E. cbn [bind]. split; [reflexivity|]. split; [reflexivity|]. split; [reflexivity|]. split.
    { intros ix Hix. rewrite A by assumption. now apply Hex. }
    split; [assumption|]. split; [assumption|]. intros b' a Hne. rewrite B.
    + unfold m0. now rewrite alloc_other.
    + intros ix Hix Eq. destruct (Hin ix Hix) as (a' & Ea & _). fold r in Ea. rewrite Ea in Eq. congruence.
Qed.

(* axes of which each, walked once, stays within one step of an earlier one *)
Fixpoint nested (l : list (Z * Z)) : Prop :=
  match l with
  | [] => True
  | (s, d) :: l => 1 <= s /\ 1 <= d /\ match l with [] => True | (s', d') :: _ => s' * d' <= s end /\ nested l
  end.
Definition reachp (l : list (Z * Z)) : Z := fold_right (fun p t => fst p * (snd p - 1) + t) 0 l.
Definition extp (l : list (Z * Z)) : Z := fold_right (fun p t => Z.max (fst p * snd p) t) 0 l.
Lemma nested_reach s d l : nested ((s, d) :: l) -> reachp ((s, d) :: l) < s * d.
Proof.
  revert s d. induction l as [|[s' d'] l IH]; intros s d (Hs & Hd & H & N); [cbn; nia|]. specialize (IH s' d' N). unfold reachp in *. cbn [fold_right fst snd] in *. nia.
Qed.
Lemma reach_pairs s dims : length s = length dims -> reach s dims = reachp (combine s dims).
Proof. revert dims. induction s as [|a s IH]; intros [|d dims] L; try discriminate; [reflexivity|]. injection L as L. unfold reach, reachp in *. cbn [map dot combine fold_right fst snd]. rewrite (IH dims L). lia. Qed.
Lemma ext_pairs s dims : length s = length dims -> forall t, 0 <= t -> max_extent s dims t = Z.max t (extp (combine s dims)).
Proof.
  revert dims. induction s as [|a s IH]; intros [|d dims] L t Ht; try discriminate; [cbn; lia|]. injection L as L. cbn [max_extent combine]. unfold extp in *. cbn [fold_right fst snd]. rewrite (IH dims L) by lia. lia.
Qed.
Lemma reachp_perm l l' : Permutation l l' -> reachp l = reachp l'.
Proof. unfold reachp. induction 1; cbn [fold_right]; lia. Qed.
Lemma extp_perm l l' : Permutation l l' -> extp l = extp l'.
Proof. unfold extp. induction 1; cbn [fold_right]; lia. Qed.
Lemma nested_sides l : nested l -> Forall (fun p => 1 <= snd p) l.
Proof. induction l as [|[s d] l IH]; intro N; constructor; [apply N|apply IH; apply N]. Qed.
Lemma nested_fits s dims l : length s = length dims -> Permutation (combine s dims) l -> nested l -> exists n, memsize s dims = Ok n /\ reach s dims < n.
Proof.
  intros L P N. unfold memsize. rewrite L, Nat.eqb_refl. cbn [assrt]. destruct s as [|a s]; [destruct dims; [|discriminate]; exists 1; split; [reflexivity|cbn; lia]|].
  assert (Z0 : asize dims <> 0).
  { rewrite asize_prod. assert (F : Forall (fun d => 1 <= d) dims).
    { apply Forall_forall. intros d I. pose proof (nested_sides l N) as F. rewrite Forall_forall in F. destruct (In_nth _ _ 0 I) as (k & K & E).
      apply (F (nth k (a :: s) 0, d)). apply (Permutation_in _ P). rewrite <- E. rewrite <- combine_nth by assumption. apply nth_In. rewrite combine_length. lia. }
    assert (1 <= prod dims); [|lia]. clear - F. induction F as [|d ds H F IH]; [unfold prod; cbn; lia|]. unfold prod in *. cbn [fold_right]. nia. }
  destruct (Z.eqb_spec (asize dims) 0) as [E|_]; [contradiction|]. eexists. split; [reflexivity|]. rewrite ext_pairs by (assumption || lia). rewrite reach_pairs by assumption.
  rewrite (reachp_perm _ _ P), (extp_perm _ _ P). destruct l as [|[s0 d0] l]; [apply Permutation_sym, Permutation_nil in P; destruct dims; discriminate|].
  pose proof (nested_reach s0 d0 l N). unfold extp. cbn [fold_right fst snd]. lia.
Qed.

Definition room (s dims : list Z) : Prop := dims = [] \/ forall ix, in_range ix dims -> exists k, (k < length dims)%nat /\ dot s ix < nth k s 0 * nth k dims 0.
Lemma room_fits s dims : length s = length dims -> room s dims -> exists n, memsize s dims = Ok n /\ forall ix, in_range ix dims -> dot s ix < n.
Proof.
  intros L H. unfold memsize. rewrite L, Nat.eqb_refl. cbn [assrt]. destruct s as [|a s].
  { destruct dims; [|discriminate]. exists 1. split; [reflexivity|]. intros ix _. cbn. lia. }
  destruct H as [->|H]; [discriminate|]. destruct (Z.eqb_spec (asize dims) 0) as [E|E].
  - exists 0. split; [reflexivity|]. intros ix I. exfalso. rewrite asize_prod in E. assert (1 <= prod dims); [|lia]. clear - I. induction I as [|i d ix ds Hi I IH]; unfold prod in *; cbn [fold_right]; [lia|nia].
  - eexists. split; [reflexivity|]. intros ix I. destruct (H ix I) as (k & K & B). destruct (proj1 (max_extent_spec (a :: s) dims 0 _ L) (Z.le_refl _)) as [_ F]. rewrite Forall_forall in F.
    assert (J : In (nth k dims 0, nth k (a :: s) 0) (combine dims (a :: s))). { rewrite <- combine_nth by (symmetry; assumption). apply nth_In. rewrite combine_length. lia. }
    specialize (F _ J). cbn [fst snd] in F. lia.
Qed.
Lemma nested_room s dims l : length s = length dims -> Forall (fun a => 0 <= a) s -> Permutation (combine s dims) l -> nested l -> exists n, memsize s dims = Ok n /\ forall ix, in_range ix dims -> dot s ix < n.
Proof. intros L N P H. destruct (nested_fits s dims l L P H) as (n & M & R). exists n. split; [exact M|]. intros ix I. pose proof (dot_reach s dims ix N I). lia. Qed.
