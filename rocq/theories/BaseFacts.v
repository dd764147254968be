(* BaseFacts.v -- lemmas about Base.v *)
From Verif Require Import Base.
Local Open Scope Z_scope.

(* decide a boolean test by lia *)
Ltac ifF := match goal with |- context [if ?b then _ else _] => replace b with false by lia end.
Ltac ifT := match goal with |- context [if ?b then _ else _] => replace b with true by lia end.

Lemma bind_ok {A B} (r : res A) (f : A -> res B) b :
  bind r f = Ok b <-> exists a, r = Ok a /\ f a = Ok b.
Proof.
  destruct r; simpl; split; intro H; try discriminate.
  - exists a; auto.
  - destruct H as (a' & Ha & Hf). injection Ha as <-. exact Hf.
  - destruct H as (a' & Ha & _); discriminate.
  - destruct H as (a' & Ha & _); discriminate.
Qed.

Lemma foldM_app {S A} (f : A -> S -> res S) l1 l2 s :
  foldM f (l1 ++ l2) s = bind (foldM f l1 s) (foldM f l2).
Proof.
  revert s; induction l1 as [|a l1 IH]; intro s; simpl; [reflexivity|].
  destruct (f a s); simpl; auto.
Qed.

Lemma foldM_ext {S A} (f g : A -> S -> res S) l s :
  (forall a s, In a l -> f a s = g a s) -> foldM f l s = foldM g l s.
Proof.
  revert s; induction l as [|a l IH]; intros s H; simpl; [reflexivity|].
  rewrite H by (left; reflexivity). destruct (g a s); simpl; auto.
  apply IH; intros; apply H; right; assumption.
Qed.

Lemma foldM_map {S A B} (h : B -> A) (f : A -> S -> res S) l s :
  foldM f (map h l) s = foldM (fun b => f (h b)) l s.
Proof.
  revert s; induction l as [|a l IH]; intro s; simpl; [reflexivity|].
  destruct (f (h a) s); simpl; auto.
Qed.

Lemma foldM_flat_map {S A B} (h : B -> list A) (f : A -> S -> res S) l s :
  foldM f (flat_map h l) s = foldM (fun b s => foldM f (h b) s) l s.
Proof.
  revert s; induction l as [|a l IH]; intro s; simpl; [reflexivity|].
  rewrite foldM_app. destruct (foldM f (h a) s); simpl; auto.
Qed.

Lemma foldM_fold_left {S A} (f : A -> S -> S) l s :
  foldM (fun a s => Ok (f a s)) l s = Ok (fold_left (fun s a => f a s) l s).
Proof. revert s; induction l as [|a l IH]; intro s; simpl; auto. Qed.

(* invariant rule for loops *)
Lemma foldM_inv {S A} (P : list A -> S -> Prop) (f : A -> S -> res S) l s0 :
  P [] s0 ->
  (forall done a rest s, l = done ++ a :: rest -> P done s ->
     exists s', f a s = Ok s' /\ P (done ++ [a]) s') ->
  exists s', foldM f l s0 = Ok s' /\ P l s'.
Proof.
  intros H0 Hstep.
  assert (G : forall rest done s, l = done ++ rest -> P done s ->
            exists s', foldM f rest s = Ok s' /\ P l s').
  { induction rest as [|a rest IH]; intros done s Hl HP; simpl.
    - rewrite app_nil_r in Hl. subst done. eauto.
    - destruct (Hstep done a rest s Hl HP) as (s' & Hs' & HP').
      rewrite Hs'; simpl. apply (IH (done ++ [a])); [|exact HP'].
      rewrite <- app_assoc; exact Hl. }
  apply (G l []); auto.
Qed.

(* ---- zrange ---- *)
Lemma in_zrange n i : In i (zrange n) <-> 0 <= i < n.
Proof.
  unfold zrange; rewrite in_map_iff; split.
  - intros (k & <- & Hk). apply in_seq in Hk. lia.
  - intro H. exists (Z.to_nat i); split; [lia|]. apply in_seq; lia.
Qed.
Lemma zrange_nodup n : NoDup (zrange n).
Proof.
  unfold zrange. apply FinFun.Injective_map_NoDup; [intros a b; lia|apply seq_NoDup].
Qed.
Lemma zrange_length n : length (zrange n) = Z.to_nat n.
Proof. unfold zrange; now rewrite map_length, seq_length. Qed.
Lemma zrange_nil n : n <= 0 -> zrange n = [].
Proof. intro H; unfold zrange; replace (Z.to_nat n) with 0%nat by lia; reflexivity. Qed.
Lemma zrange_succ n : 0 <= n -> zrange (n + 1) = zrange n ++ [n].
Proof.
  intro H; unfold zrange. replace (Z.to_nat (n+1)) with (S (Z.to_nat n)) by lia.
  rewrite seq_S, map_app; simpl. do 2 f_equal. lia.
Qed.
Lemma zrange_cons n : 0 < n -> zrange n = 0 :: map Z.succ (zrange (n - 1)).
Proof.
  intro H; unfold zrange. replace (Z.to_nat n) with (S (Z.to_nat (n-1))) by lia.
  simpl. f_equal. rewrite <- seq_shift, !map_map. apply map_ext; intro; lia.
Qed.
Lemma zrange_nth n i : 0 <= i < n -> nth_error (zrange n) (Z.to_nat i) = Some i.
Proof.
  intro H; unfold zrange. rewrite nth_error_map.
  rewrite (nth_error_nth' _ 0%nat) by (rewrite seq_length; lia).
  rewrite seq_nth by lia. simpl. f_equal; lia.
Qed.
Lemma zrange_app n m : 0 <= n -> 0 <= m -> zrange (n + m) = zrange n ++ map (Z.add n) (zrange m).
Proof.
  intros Hn Hm. unfold zrange. rewrite Z2Nat.inj_add by lia. rewrite seq_app, map_app. f_equal.
  simpl. rewrite map_map. rewrite <- (Nat.add_0_r (Z.to_nat n)) at 1.
  generalize 0%nat as k. induction (Z.to_nat m) as [|p IH]; intro k; simpl; [reflexivity|].
  f_equal; [lia|]. rewrite <- IH. f_equal. f_equal. lia.
Qed.

(* zrange (a*b) enumerates i*b+j for i<a, j<b in order *)
Lemma zrange_mul a b : 0 <= a -> 0 <= b ->
  zrange (a * b) = flat_map (fun i => map (fun j => i * b + j) (zrange b)) (zrange a).
Proof.
  intros Ha Hb. pattern a. apply natlike_ind; [reflexivity| |exact Ha].
  intros x Hx IH. replace (Z.succ x * b) with (x * b + b) by lia.
  rewrite zrange_app by nia. rewrite IH. unfold Z.succ. rewrite zrange_succ by lia.
  rewrite flat_map_app. simpl. rewrite app_nil_r. reflexivity.
Qed.

(* ---- list helpers ---- *)
Lemma flat_map_map {A B C} (f : B -> list C) (g : A -> B) l :
  flat_map f (map g l) = flat_map (fun a => f (g a)) l.
Proof. induction l; simpl; congruence. Qed.
Lemma map_flat_map {A B C} (f : B -> C) (g : A -> list B) l :
  map f (flat_map g l) = flat_map (fun a => map f (g a)) l.
Proof. induction l; simpl; [reflexivity|]. rewrite map_app; congruence. Qed.
Lemma flat_map_flat_map {A B C} (f : B -> list C) (g : A -> list B) l :
  flat_map f (flat_map g l) = flat_map (fun a => flat_map f (g a)) l.
Proof. induction l; simpl; [reflexivity|]. rewrite flat_map_app; congruence. Qed.
Lemma flat_map_ext_in {A B} (f g : A -> list B) l :
  (forall a, In a l -> f a = g a) -> flat_map f l = flat_map g l.
Proof.
  induction l as [|a l IH]; intro H; simpl; [reflexivity|].
  rewrite H by (left; reflexivity). f_equal. apply IH; intros; apply H; right; assumption.
Qed.
Lemma flat_map_singleton {A B} (f : A -> B) l : flat_map (fun a => [f a]) l = map f l.
Proof. induction l; simpl; congruence. Qed.

Lemma Permutation_flat_map_ext {A B} (f g : A -> list B) l :
  (forall a, In a l -> Permutation (f a) (g a)) ->
  Permutation (flat_map f l) (flat_map g l).
Proof.
  induction l as [|a l IH]; intro H; simpl; [constructor|].
  apply Permutation_app; [apply H; left; reflexivity|apply IH; intros; apply H; right; assumption].
Qed.

Lemma Permutation_flat_map_swap {A B C} (f : A -> B -> C) la lb :
  Permutation (flat_map (fun a => map (fun b => f a b) lb) la)
              (flat_map (fun b => map (fun a => f a b) la) lb).
Proof.
  induction la as [|a la IH]; simpl.
  - induction lb; simpl; [constructor|assumption].
  - rewrite IH. clear IH. induction lb as [|b lb IHb]; simpl; [constructor|].
    constructor. rewrite <- IHb. rewrite !app_assoc.
    apply Permutation_app_tail. apply Permutation_app_comm.
Qed.

Lemma Permutation_flat_map_app {A B} (f g : A -> list B) l :
  Permutation (flat_map (fun a => f a ++ g a) l) (flat_map f l ++ flat_map g l).
Proof.
  induction l as [|a l IH]; simpl; [constructor|].
  rewrite IH. rewrite <- !app_assoc. apply Permutation_app_head.
  rewrite !app_assoc. apply Permutation_app_tail. apply Permutation_app_comm.
Qed.

Lemma Permutation_flat_map_swap2 {A B C} (f : A -> B -> list C) la lb :
  Permutation (flat_map (fun a => flat_map (fun b => f a b) lb) la)
              (flat_map (fun b => flat_map (fun a => f a b) la) lb).
Proof.
  induction la as [|a la IH]; simpl.
  - induction lb; simpl; [constructor|assumption].
  - rewrite IH. symmetry. apply Permutation_flat_map_app.
Qed.

Lemma NoDup_map_inj {A B} (f : A -> B) l :
  (forall a b, In a l -> In b l -> f a = f b -> a = b) -> NoDup l -> NoDup (map f l).
Proof.
  intros Hinj Hnd. induction Hnd as [|a l Hna Hnd IH]; simpl; constructor.
  - rewrite in_map_iff. intros (b & Hb & Hin). apply Hna.
    rewrite (Hinj a b); auto; [left; reflexivity|right; assumption].
  - apply IH. intros; apply Hinj; auto; right; assumption.
Qed.

Lemma NoDup_map_inv' {A B} (f : A -> B) l :
  NoDup (map f l) -> forall a b, In a l -> In b l -> f a = f b -> a = b.
Proof.
  induction l as [|x l IH]; simpl; intros Hnd a b Ha Hb Hf; [contradiction|].
  inversion Hnd as [|? ? Hx Hnd']; subst.
  destruct Ha as [<-|Ha], Hb as [<-|Hb]; auto.
  - exfalso; apply Hx. rewrite Hf. now apply in_map.
  - exfalso; apply Hx. rewrite <- Hf. now apply in_map.
Qed.

(* ---- memory ---- *)
Lemma upd_same {V} (m : mem V) b a v : upd m b a v b a = Some v.
Proof. unfold upd. now rewrite !Z.eqb_refl. Qed.
Lemma upd_other {V} (m : mem V) b a v b' a' :
  (b', a') <> (b, a) -> upd m b a v b' a' = m b' a'.
Proof.
  intro H; unfold upd. destruct (b' =? b) eqn:E1, (a' =? a) eqn:E2; simpl; auto.
  exfalso; apply H. f_equal; lia.
Qed.

(* ---- sums ---- *)
Section Sums.
  Variable R : cring.
  Add Ring Rr : (cth R).
  Lemma rsum_app (l1 l2 : list R) : rsum (l1 ++ l2) = cadd (rsum l1) (rsum l2).
  Proof.
    unfold rsum. induction l1 as [|a l1 IH]; cbn [app fold_right]; [ring|]. rewrite IH; ring.
  Qed.
  Lemma rsum_perm (l1 l2 : list R) : Permutation l1 l2 -> rsum l1 = rsum l2.
  Proof.
    unfold rsum. induction 1; cbn [fold_right]; try congruence; ring.
  Qed.
  Lemma rsum_cons (a : R) l : rsum (a :: l) = cadd a (rsum l).
  Proof. reflexivity. Qed.
  Lemma rsum_nil : rsum (@nil R) = c0.
  Proof. reflexivity. Qed.
  Lemma rsum_map_add {A} (f g : A -> R) l :
    rsum (map (fun a => cadd (f a) (g a)) l) = cadd (rsum (map f l)) (rsum (map g l)).
  Proof. induction l as [|a l IH]; cbn [map]; rewrite ?rsum_nil, ?rsum_cons; [ring|]. rewrite IH; ring. Qed.
  Lemma rsum_map_mul_l {A} (c : R) (f : A -> R) l :
    rsum (map (fun a => cmul c (f a)) l) = cmul c (rsum (map f l)).
  Proof. induction l as [|a l IH]; cbn [map]; rewrite ?rsum_nil, ?rsum_cons; [ring|]. rewrite IH; ring. Qed.
  Lemma rsum_map_mul_r {A} (c : R) (f : A -> R) l :
    rsum (map (fun a => cmul (f a) c) l) = cmul (rsum (map f l)) c.
  Proof. induction l as [|a l IH]; cbn [map]; rewrite ?rsum_nil, ?rsum_cons; [ring|]. rewrite IH; ring. Qed.
  Lemma rsum_zero {A} (f : A -> R) l : (forall a, In a l -> f a = c0) -> rsum (map f l) = c0.
  Proof.
    induction l as [|a l IH]; intro H; cbn [map]; rewrite ?rsum_nil, ?rsum_cons; [reflexivity|].
    rewrite H by (left; reflexivity). rewrite IH by (intros; apply H; right; assumption). ring.
  Qed.
  Lemma rsum_flat_map {A B} (f : B -> R) (g : A -> list B) l :
    rsum (map f (flat_map g l)) = rsum (map (fun a => rsum (map f (g a))) l).
  Proof.
    induction l as [|a l IH]; cbn [flat_map map]; [reflexivity|].
    rewrite map_app, rsum_app, rsum_cons. now rewrite IH.
  Qed.
  Lemma rsum_swap {A B} (f : A -> B -> R) la lb :
    rsum (map (fun a => rsum (map (fun b => f a b) lb)) la) =
    rsum (map (fun b => rsum (map (fun a => f a b) la)) lb).
  Proof.
    induction la as [|a la IH]; cbn [map]; rewrite ?rsum_nil, ?rsum_cons.
    - symmetry. apply rsum_zero. reflexivity.
    - rewrite IH. rewrite <- rsum_map_add. reflexivity.
  Qed.
  Lemma rsum_ext {A} (f g : A -> R) l :
    (forall a, In a l -> f a = g a) -> rsum (map f l) = rsum (map g l).
  Proof. intro H. f_equal. apply map_ext_in. exact H. Qed.
  (* a sum with exactly one non-zero term *)
  Lemma rsum_single {A} (f : A -> R) l a :
    NoDup l -> In a l -> (forall b, In b l -> b <> a -> f b = c0) -> rsum (map f l) = f a.
  Proof.
    intros Hnd Hin Hz. induction Hnd as [|x l Hx Hnd IH]; [contradiction|].
    cbn [map]. rewrite rsum_cons. destruct Hin as [->|Hin].
    - rewrite rsum_zero; [ring|]. intros b Hb. apply Hz; [right; assumption|].
      intros ->. contradiction.
    - rewrite (Hz x); [|left; reflexivity|intros ->; contradiction].
      rewrite IH; [ring|assumption|]. intros; apply Hz; auto. right; assumption.
  Qed.
End Sums.

Lemma Forall2_cons_iff {A B} (R : A -> B -> Prop) a l b m :
  Forall2 R (a :: l) (b :: m) <-> R a b /\ Forall2 R l m.
Proof. split; [intro H; inversion H; auto|intros [? ?]; now constructor]. Qed.
Lemma pos_of_lt_mul k m n : 0 <= n -> 0 <= k < m * n -> 0 < n.
Proof. intros Hn Hk. destruct (Z.eq_dec n 0) as [->|]; lia. Qed.
