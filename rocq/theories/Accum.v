(* Accum.v -- running a list of updates "cell += value" whose values depend only on cells that no update
   writes.  Proof support for the gather, slice, einsum, convolution and sparse kernels. *)
From Verif Require Import Base BaseFacts Model_Index Model_View Model_Tensor Proofs_Tensor.
Local Open Scope Z_scope.

Definition addr_dec (p q : addr) : {p = q} + {p <> q}.
Proof. decide equality; apply Z.eq_dec. Defined.
Definition aeqb (p q : addr) : bool := (fst p =? fst q) && (snd p =? snd q).
Lemma aeqb_eq p q : aeqb p q = true <-> p = q.
Proof. unfold aeqb. destruct p, q; cbn. rewrite andb_true_iff, !Z.eqb_eq. split; [intros [-> ->]; reflexivity|intro H; injection H; auto]. Qed.
Lemma aeqb_refl p : aeqb p p = true.
Proof. now apply aeqb_eq. Qed.

Section Acc.
Context {R : cring}.
Add Ring RrAcc : (cth R).
Notation memR := (mem (car R)).
(* cell p += v *)
Definition incA (p : addr) (v : R) (m : memR) : res memR := rmw (fun u _ => cadd u v) p [] m.
Definition accum {A} (t : A -> addr) (act : A -> memR -> res R) (l : list A) (m : memR) : res memR :=
  foldM (fun a m => do v <- act a m; incA (t a) v m) l m.
(* total added to cell p *)
Definition added {A} (t : A -> addr) (val : A -> R) (l : list A) (p : addr) : R :=
  rsum (map val (filter (fun a => aeqb (t a) p) l)).
Definition plus_on (d : addr -> R) (m m' : memR) : Prop :=
  forall p, at_ m' p = option_map (fun v => cadd v (d p)) (at_ m p).
Definition agree_off (T : addr -> Prop) (m m' : memR) : Prop := forall p, ~ T p -> at_ m' p = at_ m p.
Lemma incA_ok p v m u : at_ m p = Some u -> incA p v m = Ok (upd m (fst p) (snd p) (cadd u v)).
Proof.
  intro H. unfold incA, rmw. rewrite (loadA_some _ _ _ H). cbn. unfold store. unfold at_ in H. now rewrite H.
Qed.
Lemma accum_ok {A} (t : A -> addr) (act : A -> memR -> res R) (val : A -> R) l m (T : addr -> Prop) :
  (forall a, In a l -> T (t a)) ->
  (forall a, In a l -> at_ m (t a) <> None) ->
  (forall a m', In a l -> agree_off T m m' -> act a m' = Ok (val a)) ->
  exists m', accum t act l m = Ok m' /\ plus_on (added t val l) m m'.
Proof.
  intros HT Hal Hact. revert m Hal Hact. induction l as [|a l IH]; intros m Hal Hact.
  - exists m. split; [reflexivity|]. intro p. unfold added. cbn. rewrite rsum_nil. destruct (at_ m p); cbn; [f_equal; ring|reflexivity].
  - unfold accum. cbn [foldM]. rewrite (Hact a m); [|now left|intros ? ?; reflexivity]. cbn [bind].
    destruct (at_ m (t a)) as [u|] eqn:Eu; [|exfalso; now apply (Hal a (or_introl eq_refl))].
    rewrite (incA_ok _ _ _ _ Eu). cbn [bind]. set (m1 := upd m _ _ _).
    assert (Off : forall q, q <> t a -> at_ m1 q = at_ m q) by (intros; now apply at_upd_other).
    assert (On : at_ m1 (t a) = Some (cadd u (val a))) by apply at_upd_same.
    destruct (IH (fun b Hb => HT b (or_intror Hb)) m1) as (m' & E & P).
    + intros b Hb. destruct (addr_dec (t b) (t a)) as [->|N]; [congruence|]. rewrite Off by assumption. apply Hal. now right.
    + intros b m' Hb Ag. apply Hact; [now right|]. intros p Hp. rewrite Ag by assumption. apply Off. intros ->. apply Hp, HT. now left.
    + exists m'. split; [exact E|]. intro p. rewrite P. unfold added. cbn [filter]. destruct (addr_dec (t a) p) as [<-|N].
      * rewrite On, aeqb_refl, Eu. cbn [map option_map]. rewrite rsum_cons. f_equal. ring.
      * rewrite Off by congruence. destruct (aeqb (t a) p) eqn:Ea; [apply aeqb_eq in Ea; congruence|]. reflexivity.
Qed.
Lemma plus_off (d : addr -> R) m m' p : plus_on d m m' -> d p = c0 -> at_ m' p = at_ m p.
Proof. intros H E. rewrite H, E. destruct (at_ m p); cbn; [f_equal; ring|reflexivity]. Qed.
Lemma plus_at (d : addr -> R) m m' p v : plus_on d m m' -> at_ m p = Some v -> at_ m' p = Some (cadd v (d p)).
Proof. intros H E. now rewrite H, E. Qed.
Lemma plus_alloc (d : addr -> R) m m' p : plus_on d m m' -> (at_ m' p <> None <-> at_ m p <> None).
Proof. intros H. rewrite H. destruct (at_ m p); cbn; split; congruence. Qed.
Lemma plus_trans (d e : addr -> R) m m1 m2 : plus_on d m m1 -> plus_on e m1 m2 -> plus_on (fun p => cadd (d p) (e p)) m m2.
Proof. intros H K p. rewrite K, H. destruct (at_ m p); cbn; [f_equal; ring|reflexivity]. Qed.
Lemma plus_ext (d e : addr -> R) m m' : plus_on d m m' -> (forall p, d p = e p) -> plus_on e m m'.
Proof. intros H K p. now rewrite H, K. Qed.
Lemma plus_refl m : plus_on (fun _ => c0) m m.
Proof. intro p. destruct (at_ m p); cbn; [f_equal; ring|reflexivity]. Qed.
Lemma added_off {A} (t : A -> addr) (val : A -> R) l p : (forall a, In a l -> t a <> p) -> added t val l p = c0.
Proof.
  intro H. unfold added. replace (filter _ l) with (@nil A); [apply rsum_nil|]. symmetry. induction l as [|a l IH]; [reflexivity|]. cbn.
  destruct (aeqb (t a) p) eqn:E; [apply aeqb_eq in E; exfalso; now apply (H a (or_introl eq_refl))|]. apply IH. intros b Hb. apply H. now right.
Qed.
Lemma added_if {A} (t : A -> addr) (val : A -> R) l p : added t val l p = rsum (map (fun a => if aeqb (t a) p then val a else c0) l).
Proof.
  unfold added. induction l as [|a l IH]; [reflexivity|]. cbn. destruct (aeqb (t a) p); cbn [map]; rewrite !rsum_cons, ?IH; [reflexivity|]. rewrite <- IH. ring.
Qed.
Lemma filter_rsum {A} (c : A -> bool) (val : A -> R) l : rsum (map val (filter c l)) = rsum (map (fun a => if c a then val a else c0) l).
Proof.
  induction l as [|a l IH]; [reflexivity|]. cbn. destruct (c a); cbn [map]; rewrite !rsum_cons, ?IH; [reflexivity|]. rewrite <- IH. ring.
Qed.
Lemma accum_map {A B} (h : B -> A) (t : A -> addr) act l m : accum t act (map h l) m = accum (fun b => t (h b)) (fun b => act (h b)) l m.
Proof. unfold accum. now rewrite foldM_map. Qed.
Lemma added_perm {A} (t : A -> addr) (val : A -> R) l l' p : Permutation l l' -> added t val l p = added t val l' p.
Proof. intro P. rewrite !added_if. apply rsum_perm. now apply Permutation_map. Qed.
Lemma added_map {A B} (h : B -> A) (t : A -> addr) val l p : added t val (map h l) p = added (fun b => t (h b)) (fun b => val (h b)) l p.
Proof. rewrite !added_if, map_map. reflexivity. Qed.
Lemma added_app {A} (t : A -> addr) (val : A -> R) l l' p : added t val (l ++ l') p = cadd (added t val l p) (added t val l' p).
Proof. rewrite !added_if, map_app, rsum_app. reflexivity. Qed.
Lemma added_ext {A} (t t' : A -> addr) (val val' : A -> R) l p : (forall a, In a l -> t a = t' a /\ val a = val' a) -> added t val l p = added t' val' l p.
Proof. intro H. rewrite !added_if. apply rsum_ext. intros a Ha. destruct (H a Ha) as [-> ->]. reflexivity. Qed.
(* the single-source update as used by rmw f_add1 *)
Lemma rmw_inc p q m : rmw f_add1 p [q] m = match loadA m p with Ok _ => do v <- loadA m q; incA p v m | Throw => Throw | UB => UB end.
Proof.
  unfold incA, rmw. destruct (loadA m p) as [u| |]; cbn; [|reflexivity..]. destruct (loadA m q); reflexivity.
Qed.
End Acc.
