(* Proofs_Graph4.v -- traversal of the spanning tree; rooted paths of the forest of matches. *)
From Verif Require Import Base BaseFacts Map Proofs_Containers2 Model_Containers Proofs_Containers Proofs_Containers4 Model_Tree Proofs_Tree Proofs_Tree2 Model_Graph Spec_Graph Proofs_Graph Proofs_Graph3.
Local Open Scope Z_scope.

(* each entry but the first refers to an earlier one, its parent in the tree *)
Definition trav_ok (ix : Z) (ls : list (Z * Z)) (o : list (Z * Z)) : Prop :=
  forall k v q, (0 < k)%nat -> nth_error o k = Some (v, q) -> ix <= q < ix + Z.of_nat k /\ exists u z, nth_error o (Z.to_nat (q - ix)) = Some (u, z) /\ In (u, v) ls.
Lemma idf_trav : forall t l ix old, exists o, idf_t t l ix old = (o, Z.of_nat (length o)) /\ map fst o = depth_first_t t l /\ nth_error o 0 = Some (l, old) /\ trav_ok ix (links t l) o.
Proof.
  induction t as [ks IH] using tree_ind2. intros l ix old. rewrite idf_eq, depth_first_eq, links_eq.
  assert (K : forall ks' out, (forall kt, In kt ks' -> In kt ks) -> nth_error out 0 = Some (l, old) -> trav_ok ix (klinks l ks) out ->
    exists o, idfk ks' ix out (Z.of_nat (length out)) = (o, Z.of_nat (length o)) /\ map fst o = map fst out ++ klabels ks' /\ nth_error o 0 = Some (l, old) /\ trav_ok ix (klinks l ks) o).
  { induction ks' as [|[a t] ks' IHk]; intros out Sub H0 HT; cbn [idfk fst snd].
    - exists out. cbn. rewrite app_nil_r. auto.
    - destruct (IH a t ltac:(apply Sub; now left) a (ix + Z.of_nat (length out)) ix) as (o & E & F & G & Tr). rewrite E.
      replace (Z.of_nat (length out) + Z.of_nat (length o)) with (Z.of_nat (length (out ++ o))) by (rewrite app_length; lia).
      assert (Lo : (0 < length out)%nat) by (apply nth_error_Some; congruence).
      destruct (IHk (out ++ o)) as (o2 & E2 & F2 & G2 & T2).
      + intros kt I. apply Sub. now right.
      + rewrite nth_error_app1; assumption.
      + intros k v q Hk HE. destruct (lt_dec k (length out)) as [L|L].
        * rewrite nth_error_app1 in HE by assumption. destruct (HT k v q Hk HE) as (Q & u & z & N & I). split; [exact Q|]. exists u, z. split; [|exact I]. rewrite nth_error_app1; [exact N|]. lia.
        * rewrite nth_error_app2 in HE by lia. destruct (Nat.eq_dec k (length out)) as [->|Ne].
          -- rewrite Nat.sub_diag, G in HE. injection HE as <- <-. split; [lia|]. exists l, old. replace (Z.to_nat (ix - ix)) with O by lia. split; [rewrite nth_error_app1; assumption|]. unfold klinks. apply in_flat_map. exists (a, t). split; [apply Sub; now left|now left].
          -- destruct (Tr (k - length out)%nat v q ltac:(lia) HE) as (Q & u & z & N & I). split; [lia|]. exists u, z. split.
             ++ rewrite nth_error_app2 by lia. rewrite <- N. f_equal. lia.
             ++ unfold klinks. apply in_flat_map. exists (a, t). split; [apply Sub; now left|right; exact I].
      + exists o2. split; [exact E2|]. split; [|auto]. rewrite F2, map_app, F. cbn [klabels flat_map fst snd]. now rewrite <- app_assoc. }
  destruct (K ks [(l, old)]) as (o & E & F & G & Tr); [auto|reflexivity| |exists o; auto].
  intros k v q Hk HE. destruct k; [lia|]. destruct k; discriminate.
Qed.

(* rooted paths *)
Inductive rpath : ltree Z -> list Z -> Prop :=
| rp_root l t : rpath (l, t) [l]
| rp_step l ks kt p : In kt ks -> rpath kt p -> rpath (l, Tree ks) (l :: p).
Lemma rpath_ne t p : rpath t p -> p <> []. Proof. destruct 1; discriminate. Qed.
Lemma erase_perm' l s : NoDup s -> In l s -> Permutation s (l :: set_erase Z.eqb l s) /\ NoDup (set_erase Z.eqb l s).
Proof. apply (erase_perm Z.eqb Z.eqb_eq). Qed.
Lemma consists_rpath : forall t l s, NoDup s -> (consists_t Z.eqb t l s = true <-> exists p, rpath (l, t) p /\ Permutation p s).
Proof.
  induction t as [ks IH] using tree_ind2. intros l s ND. cbn [consists_t]. destruct (existsb (Z.eqb l) s) eqn:E.
  2:{ split; [discriminate|]. intros (p & Hp & P). assert (In l s). { apply (Permutation_in _ P). inversion Hp; now left. } apply in_M in H. congruence. }
  apply in_M in E. destruct (erase_perm' l s ND E) as [P1 N1]. destruct (Z.of_nat (length s) =? 1) eqn:E1.
  - split; [|reflexivity]. intros _. exists [l]. split; [constructor|]. destruct s as [|a [|b s]]; [destruct E| |cbn [length] in E1; lia]. destruct E as [->|[]]. apply Permutation_refl.
  - rewrite existsb_exists. split.
    + intros ([a t] & I & C). cbn in C. apply (IH a t I) in C; [|exact N1]. destruct C as (p & Rp & Pp). exists (l :: p). split; [now apply rp_step with (kt := (a, t))|]. rewrite P1. now constructor.
    + intros (p & Rp & Pp). inversion Rp as [|? ? kt q I Rq]; subst.
      * apply Permutation_length in Pp. cbn [length] in Pp. lia.
      * exists kt. split; [exact I|]. destruct kt as [a t]. cbn. apply (IH a t I); [exact N1|]. exists q. split; [exact Rq|]. rewrite P1 in Pp. now apply Permutation_cons_inv in Pp.
Qed.
Lemma to_set_perm x : NoDup x -> Permutation (to_set Z.eqb x) x.
Proof. intro N. destruct (to_set_ok Z.eqb Z.eqb_eq x) as [A B]. now apply NoDup_Permutation. Qed.
Lemma forest_consists_ok x f : NoDup x -> (forest_consists x f = true <-> exists t p, In t f /\ rpath t p /\ Permutation p x).
Proof.
  intro N. unfold forest_consists. rewrite existsb_exists. pose proof (to_set_perm x N) as P. assert (N' : NoDup (to_set Z.eqb x)) by (apply (Permutation_NoDup (Permutation_sym P)); exact N). split.
  - intros ([l t] & I & C). apply consists_rpath in C; [|exact N']. destruct C as (p & Rp & Pp). exists (l, t), p. split; [exact I|]. split; [exact Rp|]. now rewrite Pp.
  - intros ([l t] & p & I & Rp & Pp). exists (l, t). split; [exact I|]. apply consists_rpath; [exact N'|]. exists p. split; [exact Rp|]. now rewrite P.
Qed.

(* trees all of whose maximal paths have length d *)
Fixpoint full (d : nat) (t : ltree Z) : Prop :=
  match d with
  | O => False
  | S O => snd t = Tree []
  | S d => kids (snd t) <> [] /\ forall kt, In kt (kids (snd t)) -> full d kt
  end.
Lemma maximal_prefix : forall (t : tree Z) p q, maximal t (p ++ q) = map (app p) (maximal t q).
Proof.
  induction t as [ks IH] using tree_ind2. intros p q. cbn [maximal]. destruct ks as [|kt0 ks0]; [reflexivity|].
  assert (K : forall ks', (forall kt, In kt ks' -> In kt (kt0 :: ks0)) -> flat_map (fun kt => maximal (snd kt) ((p ++ q) ++ [fst kt])) ks' = map (app p) (flat_map (fun kt => maximal (snd kt) (q ++ [fst kt])) ks')).
  { induction ks' as [|[a t] ks' IHk]; intro Sub; [reflexivity|]. cbn [flat_map fst snd]. rewrite map_app, IHk by (intros kt I; apply Sub; now right). f_equal. rewrite <- app_assoc. apply (IH a t). apply Sub. now left. }
  now apply K.
Qed.
Lemma lmaximal_node (l : Z) (ks : list (ltree Z)) : ks <> [] -> lmaximal (l, Tree ks) = map (cons l) (flat_map lmaximal ks).
Proof.
  intro N. unfold lmaximal at 1. cbn [fst snd app]. cbn [maximal]. destruct ks as [|kt0 ks0]; [congruence|]. generalize (kt0 :: ks0). clear. intro ks.
  induction ks as [|[a t] ks IH]; [reflexivity|]. cbn [flat_map]. rewrite map_app, IH. f_equal. cbn [fst snd]. unfold lmaximal. cbn [fst snd app]. apply (maximal_prefix t [l] [a]).
Qed.
Lemma full_paths : forall d t p, full d t -> length p = d -> (rpath t p <-> In p (lmaximal t)).
Proof.
  induction d as [|d IH]; intros [l [ks]] p F Lp; [destruct F|]. cbn [full snd kids] in F. destruct d as [|d].
  - injection F as ->. cbn. split; [intro Rp; inversion Rp; subst; [auto|contradiction]|intros [<-|[]]; constructor].
  - destruct F as [Ne F]. rewrite lmaximal_node by exact Ne. rewrite in_map_iff. split.
    + intro Rp. inversion Rp as [|? ? kt q I Rq]; subst; [cbn in Lp; lia|]. exists q. split; [reflexivity|]. apply in_flat_map. exists kt. split; [exact I|]. apply (IH kt q (F kt I)); [cbn in Lp; lia|exact Rq].
    + intros (q & <- & I). apply in_flat_map in I. destruct I as (kt & I & Iq). apply rp_step with (kt := kt); [exact I|]. apply (IH kt q (F kt I)); [cbn in Lp; lia|exact Iq].
Qed.
Lemma full_length : forall d t p, full d t -> In p (lmaximal t) -> length p = d.
Proof.
  induction d as [|d IH]; intros [l [ks]] p F I; [destruct F|]. cbn [full snd kids] in F. destruct d as [|d].
  - injection F as ->. cbn in I. destruct I as [<-|[]]. reflexivity.
  - destruct F as [Ne F]. rewrite lmaximal_node in I by exact Ne. apply in_map_iff in I. destruct I as (q & <- & I). apply in_flat_map in I. destruct I as (kt & Ik & I). cbn [length]. f_equal. apply (IH kt q (F kt Ik) I).
Qed.

(* the forest while a tree is being grown *)
Definition frame : Type := (Z * list (Z * tree Z))%type.
Definition prefix_of (ctx : list frame) : list Z := rev (map fst ctx).
Fixpoint cfound (ctx : list frame) : list (list Z) :=
  match ctx with [] => [] | (w, ks) :: ctx => cfound ctx ++ map (app (prefix_of ctx ++ [w])) (flat_map lmaximal ks) end.
Fixpoint frames_ok (n : nat) (ctx : list frame) : Prop :=
  match ctx with [] => True | (w, ks) :: ctx => frames_ok n ctx /\ forall kt, In kt ks -> full (n - S (length ctx)) kt end.
Fixpoint crp (ctx : list frame) (p : list Z) : Prop :=
  match ctx with [] => False | (w, ks) :: ctx => crp ctx p \/ exists kt p', In kt ks /\ rpath kt p' /\ p = prefix_of ctx ++ w :: p' end.
Definition grown (ctx : list frame) (cur : ltree Z) : ltree Z := fold_left (fun (cur : ltree Z) (f : frame) => (fst f, Tree (snd f ++ [cur]))) ctx cur.
Lemma prefix_cons w ks ctx : prefix_of ((w, ks) :: ctx) = prefix_of ctx ++ [w]. Proof. reflexivity. Qed.
Lemma prefix_len ctx : length (prefix_of ctx) = length ctx. Proof. unfold prefix_of. now rewrite rev_length, map_length. Qed.
Lemma grown_paths : forall ctx cur p, (rpath (grown ctx cur) p -> (exists p', rpath cur p' /\ p = prefix_of ctx ++ p') \/ (length p <= length ctx)%nat \/ crp ctx p) /\
  (crp ctx p \/ (exists p', rpath cur p' /\ p = prefix_of ctx ++ p') -> rpath (grown ctx cur) p).
Proof.
  induction ctx as [|[w ks] ctx IH]; intros cur p.
  - cbn. split; [intro Rp; left; exists p; auto|]. intros [[]|(p' & Rp & ->)]. exact Rp.
  - unfold grown. cbn [fold_left fst snd]. change (fold_left _ ctx ?c) with (grown ctx c). destruct (IH (w, Tree (ks ++ [cur])) p) as [I1 I2]. split.
    + intro Rp. destruct (I1 Rp) as [(p' & Rp' & ->)|[L|C]].
      * inversion Rp' as [|? ? kt q I Rq]; subst.
        -- right. left. rewrite app_length, prefix_len. cbn. lia.
        -- apply in_app_iff in I. destruct I as [I|[<-|[]]].
           ++ right. right. right. exists kt, q. auto.
           ++ left. exists q. split; [exact Rq|]. rewrite prefix_cons, <- app_assoc. reflexivity.
      * right. left. cbn. lia.
      * right. right. now left.
    + intros [[C|(kt & q & I & Rq & ->)]|(q & Rq & ->)].
      * apply I2. now left.
      * apply I2. right. exists (w :: q). split; [|reflexivity]. apply rp_step with (kt := kt); [rewrite in_app_iff; auto|exact Rq].
      * apply I2. right. exists (w :: q). split; [apply rp_step with (kt := cur); [rewrite in_app_iff; cbn; auto|exact Rq]|]. rewrite prefix_cons, <- app_assoc. reflexivity.
Qed.
Lemma crp_found n : forall ctx p, frames_ok n ctx -> (length ctx < n)%nat -> length p = n -> (crp ctx p <-> In p (cfound ctx)).
Proof.
  induction ctx as [|[w ks] ctx IH]; intros p F Lc Lp; [cbn; tauto|]. cbn [crp cfound frames_ok length] in *. destruct F as [F K]. rewrite in_app_iff, (IH p F ltac:(lia) Lp).
  apply or_iff_compat_l. rewrite in_map_iff. split.
  - intros (kt & q & I & Rq & ->). exists q. split; [now rewrite <- app_assoc|]. apply in_flat_map. exists kt. split; [exact I|]. rewrite app_length, prefix_len in Lp. cbn [length] in Lp. apply (full_paths _ kt q (K kt I)); [lia|exact Rq].
  - intros (q & <- & I). apply in_flat_map in I. destruct I as (kt & I & Iq). exists kt, q. split; [exact I|]. split; [|now rewrite <- app_assoc]. rewrite !app_length, prefix_len in Lp. cbn [length] in Lp. apply (full_paths _ kt q (K kt I)); [lia|exact Iq].
Qed.
Definition found (roots : list (ltree Z)) (ctx : list frame) : list (list Z) := flat_map lmaximal roots ++ cfound ctx.
Lemma plug_found n roots ctx p : (forall t, In t roots -> full n t) -> frames_ok n ctx -> S (length ctx) = n -> length p = n -> ~ In (-1) p ->
  ((exists t, In t (plug roots ctx (-1, Tree [])) /\ rpath t p) <-> In p (found roots ctx)).
Proof.
  intros HR HF Lc Lp Np. unfold plug, found. change (fold_left _ ctx ?c) with (grown ctx c). rewrite in_app_iff. rewrite <- (crp_found n ctx p HF ltac:(lia) Lp). destruct (grown_paths ctx (-1, Tree []) p) as [G1 G2]. split.
  - intros (t & I & Rp). apply in_app_iff in I. destruct I as [I|[<-|[]]].
    + left. apply in_flat_map. exists t. split; [exact I|]. now apply (full_paths n t p (HR t I)).
    + destruct (G1 Rp) as [(q & Rq & ->)|[L|C]]; [|lia|now right]. exfalso. apply Np. rewrite in_app_iff. right. inversion Rq; subst; now left.
  - intros [I|C].
    + apply in_flat_map in I. destruct I as (t & I & Ip). exists t. split; [rewrite in_app_iff; auto|]. now apply (full_paths n t p (HR t I)).
    + eexists. split; [rewrite in_app_iff; right; now left|]. apply G2. now left.
Qed.
