(* Proofs_Einsum3.v -- evaluating a transfer/broadcast loop nest over lettered axes. *)
From Verif Require Import Base BaseFacts Model_Index Model_View Model_Tensor Model_Einsum Spec_Index Spec_View Spec_Tensor Spec_Einsum
  Proofs_Index Proofs_View Proofs_Tensor Accum Proofs_Einsum Proofs_Einsum2.
Local Open Scope Z_scope.

(* ---- strides by letter *)
Fixpoint ls (str : list Z) (s : list ascii) (c : ascii) : Z :=
  match str, s with a :: str', b :: s' => (if aeq b c then a else 0) + ls str' s' c | _, _ => 0 end.
Lemma ls_occs c s : forall str pre, length str = length s ->
  fold_right Z.add 0 (map (fun i => nth (Z.to_nat i) (pre ++ str) 0) (occs c s (Z.of_nat (length pre)))) = ls str s c.
Proof.
  induction s as [|b s IH]; intros str pre L; destruct str as [|a str]; try discriminate L; [reflexivity|]. cbn [occs ls].
  replace (Z.of_nat (length pre) + 1) with (Z.of_nat (length (pre ++ [a]))) by (rewrite app_length; cbn; lia).
  injection L as L. specialize (IH str (pre ++ [a]) L). rewrite <- app_assoc in IH. cbn [app] in IH.
  destruct (aeq b c); cbn [map fold_right]; rewrite IH; [|lia]. rewrite Nat2Z.id, app_nth2, Nat.sub_diag by lia. reflexivity.
Qed.
Lemma lstride_ls v s c : length (vstr v) = length s -> lstride v s c = ls (vstr v) s c.
Proof. intro L. unfold lstride. rewrite <- occs_occ. exact (ls_occs c s (vstr v) [] L). Qed.
Lemma ls_absent c s : ~ In c s -> forall str, ls str s c = 0.
Proof.
  induction s as [|b s IH]; intros H str; destruct str; try reflexivity. cbn. rewrite IH by (intro K; apply H; now right).
  destruct (aeq b c) eqn:E; [|reflexivity]. aeqs. subst. exfalso. apply H. now left.
Qed.
Definition cs (v : view) (s L : list ascii) : list Z := map (lstride v s) L.
Lemma dot_zero L (e : ascii -> Z) : dot (map (fun _ : ascii => 0) L) (map e L) = 0.
Proof. induction L as [|a L IH]; [reflexivity|]. cbn [map dot]. rewrite IH. lia. Qed.
Lemma dot_add L (f g e : ascii -> Z) : dot (map (fun c => f c + g c) L) (map e L) = dot (map f L) (map e L) + dot (map g L) (map e L).
Proof. induction L as [|a L IH]; [reflexivity|]. cbn [map dot]. rewrite IH. lia. Qed.
Lemma dot_pick L (a : Z) b (e : ascii -> Z) : NoDup L -> dot (map (fun c => if aeq b c then a else 0) L) (map e L) = if isin L b then a * e b else 0.
Proof.
  induction L as [|c L IH]; intro N; [reflexivity|]. inversion N; subst. cbn [map dot]. rewrite IH by assumption. unfold isin. cbn [existsb]. fold (isin L b).
  destruct (aeq b c) eqn:E; cbn; [|lia]. aeqs. subst c. destruct (isin L b) eqn:I; [apply isin_In in I; contradiction|lia].
Qed.
Lemma dot_ls s L (e : ascii -> Z) : NoDup L -> (forall c, In c s -> In c L) -> forall str, length str = length s ->
  dot str (map e s) = dot (map (ls str s) L) (map e L).
Proof.
  intro N. induction s as [|b s IH]; intros H str Hl; destruct str as [|a str]; try discriminate Hl.
  - cbn [map]. symmetry. change (map (ls [] []) L) with (map (fun _ : ascii => 0) L). now rewrite dot_zero.
  - cbn [map dot]. injection Hl as Hl. rewrite (IH (fun c Hc => H c (or_intror Hc)) str Hl).
    change (map (ls (a :: str) (b :: s)) L) with (map (fun c => (if aeq b c then a else 0) + ls str s c) L).
    rewrite dot_add, dot_pick by assumption. rewrite (proj2 (isin_In L b)) by (apply H; now left). reflexivity.
Qed.
Lemma dot_cs v s L (e : ascii -> Z) : length (vstr v) = length s -> NoDup L -> (forall c, In c s -> In c L) ->
  dot (vstr v) (map e s) = dot (cs v s L) (map e L).
Proof.
  intros Hl N H. rewrite (dot_ls s L e N H _ Hl). unfold cs. f_equal. apply map_ext. intro c. symmetry. now apply lstride_ls.
Qed.
Lemma dot_app_map (f e : ascii -> Z) L L' : dot (map f (L ++ L')) (map e (L ++ L')) = dot (map f L) (map e L) + dot (map f L') (map e L').
Proof. induction L as [|a L IH]; [reflexivity|]. cbn [map dot app]. rewrite IH. lia. Qed.
Lemma lstride_absent v s c : length (vstr v) = length s -> ~ In c s -> lstride v s c = 0.
Proof. intros H K. rewrite lstride_ls by assumption. now apply ls_absent. Qed.

(* ---- assignments *)
Lemma over_out e L : forall t c, ~ In c L -> over e L t c = e c.
Proof.
  induction L as [|a L IH]; intros t c H; [reflexivity|]. destruct t as [|v t]; [reflexivity|]. cbn. destruct (aeq c a) eqn:E; [aeqs; subst; exfalso; apply H; now left|].
  apply IH. intro K. apply H. now right.
Qed.
Lemma over_map e L : NoDup L -> forall t, length t = length L -> map (over e L t) L = t.
Proof.
  induction L as [|a L IH]; intros N t H; destruct t as [|v t]; try discriminate H; [reflexivity|]. inversion N; subst. cbn [map over]. rewrite aeq_refl. f_equal.
  transitivity (map (over e L t) L); [|apply IH; [assumption|injection H; auto]]. apply map_ext_in. intros c Hc. destruct (aeq c a) eqn:E; [aeqs; subst; contradiction|reflexivity].
Qed.
Lemma over_self e f L c : In c L -> over e L (map f L) c = f c.
Proof.
  induction L as [|a L IH]; [intros []|]. intro H. cbn. destruct (aeq c a) eqn:E; [aeqs; now subst|]. apply IH. destruct H as [->|]; [now rewrite aeq_refl in E|assumption].
Qed.
Lemma fits_range D e s : fits D e s -> in_range (map e s) (map D s).
Proof. intro H. unfold in_range. induction s as [|a s IH]; cbn; constructor; [apply H; now left|apply IH; intros c Hc; apply H; now right]. Qed.
Lemma range_fits D e s : in_range (map e s) (map D s) -> fits D e s.
Proof.
  intro H. unfold in_range in H. induction s as [|a s IH]; [intros c []|]. cbn in H. inversion H; subst. intros c [->|Hc]; [assumption|]. now apply IH.
Qed.
Lemma over_fits D e L t : NoDup L -> in_range t (map D L) -> fits D (over e L t) L.
Proof. intros N H. apply range_fits. rewrite over_map; [exact H|exact N|]. apply in_range_length in H. now rewrite map_length in H. Qed.

Section Core.
Context {R : cring}.
Add Ring RrEin : (cth R).
Notation memR := (mem (car R)).

Lemma accum2_ok {A B} (ad : A -> B -> addr) (act : A -> memR -> res R) (val : A -> R) (bs : list B) (T : addr -> Prop) l : forall m,
  (forall a b, In a l -> In b bs -> T (ad a b)) -> (forall a b, In a l -> In b bs -> at_ m (ad a b) <> None) ->
  (forall a m', In a l -> agree_off T m m' -> act a m' = Ok (val a)) ->
  exists m', foldM (fun a m => do v <- act a m; foldM (fun b m => incA (ad a b) v m) bs m) l m = Ok m' /\
    plus_on (fun p => rsum (map (fun a => rsum (map (fun b => if aeqb (ad a b) p then val a else c0) bs)) l)) m m'.
Proof.
  induction l as [|a l IH]; intros m HT Hal Hact.
  - exists m. split; [reflexivity|]. cbn. apply (plus_ext (fun _ => c0)); [apply plus_refl|]. intro p. now rewrite rsum_nil.
  - cbn [foldM]. rewrite (Hact a m); [|now left|intros ? ?; reflexivity]. cbn [bind].
    destruct (accum_ok (ad a) (fun _ _ => Ok (val a)) (fun _ => val a) bs m T) as (m1 & E1 & P1).
    { intros b Hb. apply HT; [now left|exact Hb]. }
    { intros b Hb. apply Hal; [now left|exact Hb]. }
    { intros; reflexivity. }
    unfold accum in E1. cbn [bind] in E1. rewrite E1. cbn [bind].
    assert (Off : agree_off T m m1).
    { intros p Hp. apply (plus_off _ _ _ p P1). apply added_off. intros b Hb <-. apply Hp, HT; [now left|exact Hb]. }
    destruct (IH m1) as (m2 & E2 & P2).
    { intros; apply HT; [now right|assumption]. }
    { intros a' b Ha Hb. rewrite (plus_alloc _ _ _ _ P1). apply Hal; [now right|exact Hb]. }
    { intros a' m' Ha Ag. apply Hact; [now right|]. intros p Hp. rewrite Ag by assumption. now apply Off. }
    exists m2. split; [exact E2|]. eapply plus_ext; [exact (plus_trans _ _ _ _ _ P1 P2)|]. intro p. cbn [map]. rewrite rsum_cons, added_if. reflexivity.
Qed.
Definition rcells (r : view) (p : addr) : Prop := exists ix, in_range ix (vdims r) /\ p = cell r ix.
Definition einloop (r : view) (rs T B : list ascii) (D : ascii -> Z) (act : list Z -> memR -> res R) (m : memR) : res memR :=
  foldM (fun t m => do v <- act t m;
    foldM (fun b m => incA (vblk r, voff r + (dot (cs r rs T) t + dot (cs r rs B) b)) v m) (all_indices (map D B)) m) (all_indices (map D T)) m.
Lemma ein_core (r : view) (rs T B : list ascii) (D : ascii -> Z) (act : list Z -> memR -> res R) (val : (ascii -> Z) -> R) (m : memR) :
  vdims r = map D rs -> length (vstr r) = length rs -> NoDup (T ++ B) -> (forall c, In c (T ++ B) <-> In c rs) ->
  readable m r -> distinct_cells r ->
  (forall e m', fits D e T -> agree_off (rcells r) m m' -> act (map e T) m' = Ok (val e)) ->
  exists m', einloop r rs T B D act m = Ok m' /\
    (forall e, fits D e rs -> elem m' r (map e rs) = Some (cadd (elem0 m r (map e rs)) (val e))) /\
    (forall ix, in_range ix (vdims r) -> ~ coherent rs ix -> elem m' r ix = elem m r ix) /\
    untouched m m' r.
Proof.
  intros Hd Hs N HL Hr Hdist Hact.
  assert (Ls : length (vstr r) = length (vdims r)) by (rewrite Hd, map_length; exact Hs).
  set (e0 := fun _ : ascii => 0). set (env := fun t b => over (over e0 B b) T t).
  assert (NT : NoDup T) by (clear - N; induction T as [|a l IH]; [constructor|]; inversion N; subst; constructor; [intro K; apply H1, in_app_iff; now left|now apply IH]).
  assert (NB : NoDup B) by (clear - N; induction T as [|a l IH]; [exact N|]; inversion N; auto).
  assert (TB : forall c, In c T -> ~ In c B).
  { intros c Hc Kc. clear - N Hc Kc. induction T as [|a l IH]; [destruct Hc|]. cbn in N. inversion N; subst. destruct Hc as [->|Hc]; [apply H1, in_app_iff; now right|now apply IH]. }
  set (ad := fun t b => (vblk r, voff r + (dot (cs r rs T) t + dot (cs r rs B) b))).
  assert (Cell : forall e, cell r (map e rs) = ad (map e T) (map e B)).
  { intro e. unfold cell, ad. f_equal. f_equal. rewrite (dot_cs r rs (T ++ B) e Hs N) by (intros c Hc; now apply HL). unfold cs. apply dot_app_map. }
  assert (Env : forall t b, in_range t (map D T) -> in_range b (map D B) -> map (env t b) T = t /\ map (env t b) B = b /\ fits D (env t b) rs).
  { intros t b Ht Hb. pose proof (in_range_length _ _ Ht) as Lt. pose proof (in_range_length _ _ Hb) as Lb. rewrite map_length in Lt, Lb.
    assert (ET : map (env t b) T = t) by (unfold env; now apply over_map).
    assert (EB : map (env t b) B = b).
    { transitivity (map (over e0 B b) B); [|now apply over_map]. apply map_ext_in. intros c Hc. unfold env. apply over_out. intro K. now apply (TB c). }
    split; [exact ET|]. split; [exact EB|]. intros c Hc. apply HL, in_app_iff in Hc as [Hc|Hc].
    - revert c Hc. apply range_fits. now rewrite ET.
    - revert c Hc. apply range_fits. now rewrite EB. }
  assert (AdCell : forall t b, in_range t (map D T) -> in_range b (map D B) -> ad t b = cell r (map (env t b) rs)).
  { intros t b Ht Hb. destruct (Env t b Ht Hb) as (E1 & E2 & _). rewrite Cell, E1, E2. reflexivity. }
  assert (FR : forall e, fits D e rs -> in_range (map e rs) (vdims r)) by (intros e He; rewrite Hd; now apply fits_range).
  assert (Inj : forall ix jx, in_range ix (vdims r) -> in_range jx (vdims r) -> cell r ix = cell r jx -> ix = jx).
  { intros ix jx Hi Hj E. apply Hdist; try assumption. rewrite !vaddr_cell by assumption. now rewrite E. }
  destruct (accum2_ok ad act (fun t => val (over e0 T t)) (all_indices (map D B)) (rcells r) (all_indices (map D T)) m) as (m' & E & P).
  { intros t b Ht Hb. apply in_all_indices in Ht, Hb. destruct (Env t b Ht Hb) as (_ & _ & F). exists (map (env t b) rs). split; [now apply FR|now apply AdCell]. }
  { intros t b Ht Hb. apply in_all_indices in Ht, Hb. destruct (Env t b Ht Hb) as (_ & _ & F). rewrite AdCell by assumption.
    rewrite <- elem_cell by (try assumption; now apply FR). apply Hr. now apply FR. }
  { intros t m' Ht Ag. apply in_all_indices in Ht. pose proof (in_range_length _ _ Ht) as Lt. rewrite map_length in Lt.
    rewrite <- (over_map e0 T NT t Lt) at 1. apply Hact; [|exact Ag]. now apply over_fits. }
  assert (Val : forall e, fits D e T -> val (over e0 T (map e T)) = val e).
  { intros e He. pose proof (Hact e m He ltac:(intros ? ?; reflexivity)) as A1.
    assert (He' : fits D (over e0 T (map e T)) T) by (intros c Hc; rewrite over_self by assumption; now apply He).
    pose proof (Hact _ m He' ltac:(intros ? ?; reflexivity)) as A2. rewrite over_map in A2 by (auto; now rewrite map_length). rewrite A1 in A2. now injection A2. }
  exists m'. split; [exact E|]. split; [|split].
  - intros e He. pose proof (FR e He) as Hi. rewrite elem_cell by assumption. unfold elem0. rewrite elem_cell by assumption.
    destruct (at_ m (cell r (map e rs))) as [u|] eqn:Eu; [|exfalso; apply (Hr _ Hi); now rewrite elem_cell].
    rewrite (plus_at _ _ _ _ _ P Eu). f_equal. f_equal.
    assert (HeT : fits D e T) by (intros c Hc; apply He, HL, in_app_iff; now left).
    assert (HeB : fits D e B) by (intros c Hc; apply He, HL, in_app_iff; now right).
    assert (Hit : forall t b, in_range t (map D T) -> in_range b (map D B) -> ad t b = cell r (map e rs) -> t = map e T /\ b = map e B).
    { intros t b Ht Hb Eq. destruct (Env t b Ht Hb) as (E1 & E2 & F). rewrite AdCell in Eq by assumption. apply Inj in Eq; [|now apply FR|assumption].
      assert (X : forall c, In c rs -> env t b c = e c).
      { clear - Eq. revert Eq. induction rs as [|a l IH]; intros Eq c Hc; [destruct Hc|]. cbn in Eq. injection Eq as Ea El. destruct Hc as [->|Hc]; [exact Ea|now apply IH]. }
      split; [rewrite <- E1|rewrite <- E2]; apply map_ext_in; intros c Hc; apply X, HL, in_app_iff; [now left|now right]. }
    rewrite (rsum_single R _ _ (map e T)); [|apply all_indices_nodup|apply in_all_indices; now apply fits_range|].
    + rewrite (rsum_single R _ _ (map e B)); [|apply all_indices_nodup|apply in_all_indices; now apply fits_range|].
      * rewrite <- Cell, aeqb_refl. now apply Val.
      * intros b Hb Nb. apply in_all_indices in Hb. destruct (aeqb _ _) eqn:Ea; [|reflexivity]. apply aeqb_eq in Ea. exfalso. apply Nb.
        now apply (Hit (map e T) b) in Ea; [|now apply fits_range|].
    + intros t Ht Nt. apply in_all_indices in Ht. apply rsum_zero. intros b Hb. apply in_all_indices in Hb. destruct (aeqb _ _) eqn:Ea; [|reflexivity].
      apply aeqb_eq in Ea. exfalso. apply Nt. now apply (Hit t b).
  - intros ix Hi Nc. rewrite !elem_cell by assumption. apply (plus_off _ _ _ _ P). apply rsum_zero. intros t Ht. apply rsum_zero. intros b Hb.
    apply in_all_indices in Ht, Hb. destruct (aeqb _ _) eqn:Ea; [|reflexivity]. apply aeqb_eq in Ea. exfalso. apply Nc. exists (env t b).
    destruct (Env t b Ht Hb) as (_ & _ & F). rewrite AdCell in Ea by assumption. symmetry. apply Inj; [now apply FR|assumption|exact Ea].
  - intros bl a Hno. change (at_ m' (bl, a) = at_ m (bl, a)). apply (plus_off _ _ _ _ P). apply rsum_zero. intros t Ht. apply rsum_zero. intros b Hb.
    apply in_all_indices in Ht, Hb. destruct (aeqb _ _) eqn:Ea; [|reflexivity]. apply aeqb_eq in Ea. exfalso.
    destruct (Env t b Ht Hb) as (_ & _ & F). apply (Hno (map (env t b) rs)); [now apply FR|]. rewrite vaddr_cell by (auto; now apply FR). rewrite <- AdCell by assumption. now rewrite Ea.
Qed.
End Core.
