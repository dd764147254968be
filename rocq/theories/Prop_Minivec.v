(* Prop_Minivec.v -- C201: small vectors own their memory: after any history of constructions, copies, moves, transports, writes and destructions every vector holds its own elements, and
   when all are destroyed nothing stays allocated.  False for a vector moved on a device and for the constructor that fills. *)
From Verif Require Import Base Model_Minivec Proofs_Minivec.
Local Open Scope nat_scope.

Section S.
Context {V : Type} (junk : V) (plus : V -> V -> V).
(* What the program means, with vectors as values: where each one is and its elements (None: moved out), and how many were made.  None: the program is not allowed -- it uses a vector
   that was destroyed or moved from, writes to a vector that is not on the host, or beyond its end, or names a device other than 0 and 1.  With hostonly, it may move only vectors on the host. *)
Definition is_dev (d : Z) : bool := (d =? 0)%Z || (d =? 1)%Z.
Definition val (t : nat -> option (Z * option (list V))) (i : nat) : option (Z * list V) := match t i with Some (d, Some l) => Some (d, l) | _ => None end.
Definition upd (t : nat -> option (Z * option (list V))) (i : nat) c : nat -> option (Z * option (list V)) := fun j => if j =? i then c else t j.
Definition write (l : list V) (k : nat) (v : V) : list V := firstn k l ++ v :: skipn (S k) l.
Definition want (hostonly : bool) (op : mvop) (tn : (nat -> option (Z * option (list V))) * nat) : option ((nat -> option (Z * option (list V))) * nat) :=
  let (t, n) := tn in
  match op with
  | MNew k d => if is_dev d then Some (upd t n (Some (d, Some (repeat junk k))), S n) else None
  | MCopy i => match val t i with Some (d, l) => Some (upd t n (Some (d, Some l)), S n) | None => None end
  | MCopyTo i d => match val t i with Some (_, l) => if is_dev d then Some (upd t n (Some (d, Some l)), S n) else None | None => None end
  | MMove i => match val t i with
               | Some (d, l) => if hostonly && negb (d =? 0)%Z then None else Some (upd (upd t i (Some (d, None))) n (Some (d, Some l)), S n)
               | None => None end
  | MDel i => match t i with Some _ => Some (upd t i None, n) | None => None end
  | MToDev i d => match val t i with Some (_, l) => if is_dev d then Some (upd t i (Some (d, Some l)), n) else None | None => None end
  | MSet i k v => match val t i with Some (d, l) => if (d =? 0)%Z && (k <? length l) then Some (upd t i (Some (d, Some (write l k v))), n) else None | None => None end
  | MInc i k v => match val t i with
                  | Some (d, l) => match nth_error l k with Some w => if (d =? 0)%Z then Some (upd t i (Some (d, Some (write l k (plus w v)))), n) else None | None => None end
                  | None => None end
  end.
Fixpoint wants (hostonly : bool) (ops : list mvop) tn := match ops with [] => Some tn | op :: r => match want hostonly op tn with Some tn' => wants hostonly r tn' | None => None end end.
(* the state s shows the vectors t *)
Definition shows (s : mvst) (t : nat -> option (Z * option (list V))) : Prop :=
  (forall i, t i = None <-> mv_obj s i = None) /\
  (forall i d l, t i = Some (d, Some l) -> exists o, mv_obj s i = Some o /\ mv_dev o = d /\ mv_size o = length l /\ (d = 0%Z -> forall k v, nth_error l k = Some v -> mv_get i k s = Ok v)) /\
  ((forall i, t i = None) -> forall a, mv_heap s a = None).
(* C201 in full *)
Definition C201_claim (hostonly : bool) : Prop :=
  forall ops t n, wants hostonly ops (fun _ => None, 0) = Some (t, n) -> exists s, mv_run junk plus ops = Ok s /\ shows s t.

Lemma write_set l k v : k < length l -> write l k v = set_cell k v l.
Proof. unfold write. revert k. induction l; intros [|k] H; cbn in *; try lia; [reflexivity|]. f_equal. apply IHl. lia. Qed.
Lemma val_some t i d l : val t i = Some (d, l) -> t i = Some (d, Some l).
Proof. unfold val. destruct (t i) as [[d' [l'|]]|]; congruence. Qed.
Lemma step_ok op s t n t' n' : inv s t n -> want true op (t, n) = Some (t', n') -> exists s', mv_step junk plus op s = Ok s' /\ inv s' t' n'.
Proof.
  intros I W. destruct op as [k d|i|i d|i|i|i d|i k v|i k v]; cbn [want] in W; cbn [mv_step].
  - destruct (is_dev d); [|discriminate]. injection W as <- <-. eexists. split; [reflexivity|]. rewrite <- (repeat_length junk k) at 1. now apply inv_make.
  - destruct (val t i) as [[d l]|] eqn:E; [|discriminate]. apply val_some in E. injection W as <- <-. unfold mv_copy, mv_at. destruct (has _ _ _ _ _ I E) as (o & O & K & _). rewrite O. cbn.
    destruct K as (D & _). cbn in D. rewrite D. eapply step_copyto; eauto.
  - destruct (val t i) as [[d0 l]|] eqn:E; [|discriminate]. apply val_some in E. destruct (is_dev d); [|discriminate]. injection W as <- <-. eapply step_copyto; eauto.
  - destruct (val t i) as [[d l]|] eqn:E; [|discriminate]. apply val_some in E. destruct (d =? 0)%Z eqn:Z; cbn in W; [|discriminate]. apply Z.eqb_eq in Z. subst d. injection W as <- <-. now apply step_move.
  - destruct (t i) as [c|] eqn:E; [|discriminate]. injection W as <- <-. eapply step_del; eauto.
  - destruct (val t i) as [[d0 l]|] eqn:E; [|discriminate]. apply val_some in E. destruct (is_dev d); [|discriminate]. injection W as <- <-. eapply step_dev; eauto.
  - destruct (val t i) as [[d l]|] eqn:E; [|discriminate]. apply val_some in E. destruct (d =? 0)%Z eqn:Z; cbn [andb] in W; [|discriminate]. apply Z.eqb_eq in Z. subst d.
    destruct (k <? length l) eqn:K; [|discriminate]. apply Nat.ltb_lt in K. injection W as <- <-. rewrite write_set by assumption. now apply step_set.
  - destruct (val t i) as [[d l]|] eqn:E; [|discriminate]. apply val_some in E. destruct (nth_error l k) as [w|] eqn:N; [|discriminate]. destruct (d =? 0)%Z eqn:Z; [|discriminate]. apply Z.eqb_eq in Z. subst d.
    injection W as <- <-. assert (K : k < length l) by (apply nth_error_Some; congruence). rewrite write_set by assumption. unfold mv_inc. rewrite (get_ok _ _ _ _ _ _ _ I E N). cbn. now apply step_set.
Qed.
Lemma run_ok ops s t n t' n' : inv s t n -> wants true ops (t, n) = Some (t', n') -> exists s', foldM (mv_step junk plus) ops s = Ok s' /\ inv s' t' n'.
Proof.
  revert s t n. induction ops as [|op r IH]; intros s t n I W; cbn [wants foldM] in *.
  - injection W as <- <-. eauto.
  - destruct (want true op (t, n)) as [[t1 n1]|] eqn:E; [|discriminate]. destruct (step_ok _ _ _ _ _ _ I E) as (s1 & R & I1). rewrite R. cbn [bind]. eapply IH; eauto.
Qed.
Lemma inv_shows s t n : inv s t n -> shows s t.
Proof.
  intros I. repeat split.
  - intros T. pose proof (i_obj _ _ _ I i) as K. rewrite T in K. now destruct (mv_obj s i).
  - intros T. pose proof (i_obj _ _ _ I i) as K. rewrite T in K. now destruct (t i).
  - intros i d l T. destruct (has _ _ _ _ _ I T) as (o & O & (D & a & cs & A & B & C & F) & _). exists o. repeat split; auto. intros ->. intros k v. now apply (get_ok _ _ _ _ _ _ _ I T).
  - intros N a. destruct (mv_heap s a) eqn:H; [|reflexivity]. destruct (i_own _ _ _ I a) as (i & o & O & _); [congruence|]. pose proof (i_obj _ _ _ I i) as K. rewrite O, (N i) in K. easy.
Qed.

(* C201 for the programs that move only vectors on the host *)
Theorem C201_histories_partial : C201_claim true.
Proof. intros ops t n W. destruct (run_ok _ _ _ _ _ _ inv_start W) as (s & R & I). exists s. split; [exact R|]. eapply inv_shows, I. Qed.

(* the constructor that fills reads its own device number before it is set: if that happens to be 0 all is well ... *)
Theorem C201_fill_partial n v d : is_dev d = true -> exists s o, mv_fill junk 0 n v d mv_start = Ok s /\ mv_obj s 0 = Some o /\ mv_dev o = d /\ mv_size o = n /\
  (d = 0%Z -> forall k, k < n -> mv_get 0 k s = Ok v).
Proof.
  intros D. assert (I := inv_make junk _ _ _ (repeat v n) 0%Z (@inv_start V)). rewrite repeat_length in I.
  assert (T : put (fun _ => None) 0 (Some (0%Z, Some (repeat v n))) 0 = Some (0%Z, Some (repeat v n))) by apply put_eq.
  destruct (step_dev junk _ _ _ _ _ d _ I T) as (s & R & I').
  assert (T' := put_eq (put (fun _ => None) 0 (Some (0%Z, Some (repeat v n)))) 0 (Some (d, Some (repeat v n)))).
  destruct (has _ _ _ _ _ I' T') as (o & O & (Dv & a & cs & A & B & C & F) & _). rewrite repeat_length in C. exists s, o. split; [|repeat split; auto].
  - unfold mv_fill. cbn [mv_new bind]. destruct n as [|n]; [exact R|]. cbn. exact R.
  - intros -> k K. apply (get_ok _ _ _ _ _ _ _ I' T'). now apply nth_error_repeat.
Qed.
(* ... and if it is the number of the graphics card, the host writes to memory of the card *)
Theorem C201_fill_refuted n v d : 0 < n -> mv_fill junk 1 n v d mv_start = UB.
Proof. intros H. destruct n; [lia|]. reflexivity. Qed.
End S.

(* a vector on the graphics card, moved: the new vector believes itself on the host, and its destruction gives memory of the card to delete[] *)
Theorem C201_move_refuted : ~ C201_claim 0%Z Z.add false.
Proof.
  intros C. destruct (C [MNew 2 1%Z; MMove 0; MDel 1] _ _ eq_refl) as (s & R & _). discriminate R.
Qed.
(* so every nonempty or empty vector on the card is lost on moving it *)
Theorem C201_move_device {V} (junk : V) plus n : exists s o, mv_run junk plus [MNew n 1%Z; MMove 0] = Ok s /\ mv_obj s 1 = Some o /\ mv_dev o = 0%Z /\ mv_del 1 s = UB.
Proof. eexists _, _. repeat split. Qed.

(* a history that uses every call *)
Definition demo : list mvop := [MNew 2 0%Z; MSet 0 0 5%Z; MSet 0 1 7%Z; MCopyTo 0 1%Z; MCopy 1; MToDev 2 0%Z; MInc 2 1 3%Z; MMove 2].
Example C201_demo : exists t, wants 0%Z Z.add true demo (fun _ => None, 0) = Some (t, 4) /\ t 0 = Some (0%Z, Some [5; 7]%Z) /\ t 1 = Some (1%Z, Some [5; 7]%Z) /\ t 2 = Some (0%Z, None) /\ t 3 = Some (0%Z, Some [5; 10]%Z).
Proof. eexists. split; [reflexivity|]. repeat split. Qed.
Example C201_demo_end : exists t, wants 0%Z Z.add true (demo ++ [MDel 0; MDel 2; MDel 1; MDel 3]) (fun _ => None, 0) = Some (t, 4) /\ forall i, t i = None.
Proof. eexists. split; [reflexivity|]. intros [|[|[|[|i]]]]; reflexivity. Qed.
