From Verif Require Import Base BaseFacts Model_Index Model_View Model_Tensor Model_Cuda Spec_Index Spec_View Spec_Tensor Spec_Cuda
  Proofs_Axes Proofs_Index Proofs_View Proofs_View2 Proofs_Tensor.
Local Open Scope Z_scope.

Definition entriesd (d : list Z) (r : view) (xs : list view) : list entry :=
  map (fun ix => (cell r ix, map (fun x => cell x ix) xs)) (all_indices d).
Lemma entriesd_full r xs : entriesd (vdims r) r xs = entries r xs.
Proof. reflexivity. Qed.

(* ---- execution ---- *)
Lemma exec_run {V} (f : V -> list V -> V) orders m : cu_exec f orders m = run f (concat orders) m.
Proof.
  revert m. induction orders as [|l o IH]; intro m; [reflexivity|]. cbn [concat]. unfold cu_exec, run in *. rewrite foldM_app. cbn [foldM].
  destruct (foldM _ l m); cbn [bind]; auto.
Qed.
Lemma order_concat {A} (plan orders : list (list A)) : any_order plan orders -> Permutation (concat orders) (concat plan).
Proof. intro H. induction H as [|x y l l' P F IH]; cbn [concat]; [constructor|]. now apply Permutation_app. Qed.
Lemma run_untouched {V} (f : V -> list V -> V) L m m' p : run f L m = Ok m' -> ~ In p (map fst L) -> at_ m' p = at_ m p.
Proof.
  revert m. induction L as [|e L IH]; intros m E N; [now injection E as ->|]. unfold run in E. cbn [foldM] in E. destruct (rmw f (fst e) (snd e) m) as [m1| |] eqn:Em; try discriminate. cbn [bind] in E.
  rewrite (IH m1 E) by (intro H; apply N; now right). unfold rmw in Em. destruct (loadA m (fst e)); try discriminate. cbn [bind] in Em. destruct (loads m (snd e)); try discriminate. cbn [bind] in Em.
  unfold store in Em. destruct (m (fst (fst e)) (snd (fst e))); try discriminate. injection Em as <-. apply at_upd_other. intros ->. apply N. now left.
Qed.
Lemma run_total {V} (f : V -> list V -> V) L m : (forall e, In e L -> at_ m (fst e) <> None /\ Forall (fun p => at_ m p <> None) (snd e)) -> exists m', run f L m = Ok m'.
Proof.
  revert m. induction L as [|e L IH]; intros m H; [now exists m|]. destruct (H e (or_introl eq_refl)) as [A B]. unfold run. cbn [foldM]. unfold rmw at 1. destruct (at_ m (fst e)) as [v|] eqn:E; [|congruence].
  rewrite (loadA_some _ _ _ E). cbn [bind]. destruct (loads_ok m (snd e) B) as [us ->]. cbn [bind]. unfold store. unfold at_ in E. rewrite E. cbn [bind].
  assert (K : forall p, at_ m p <> None -> at_ (upd m (fst (fst e)) (snd (fst e)) (f v us)) p <> None).
  { intros p Hp. unfold at_, upd in *. destruct ((fst p =? fst (fst e)) && (snd p =? snd (fst e))); [discriminate|exact Hp]. }
  apply IH. intros e' I. destruct (H e' (or_intror I)) as [C D]. split; [now apply K|]. eapply Forall_impl; [|exact D]. auto.
Qed.

(* ---- launches ---- *)
Lemma launch_ok g b co k r xs d phi d' : map co (cu_threads g b) = all_indices d' -> map phi (all_indices d') = all_indices d ->
  Forall (fun v => exists s, cu_args k v = Ok s /\ forall c, In c (all_indices d') -> dot s c = dot (vstr v) (phi c)) (r :: xs) ->
  cu_launch g b co k r xs = Ok (if cu_ok g b then entriesd d r xs else []).
Proof.
  intros T P F. inversion F as [|? ? (rs & Er & Dr) Fx]; subst. unfold cu_launch. rewrite Er. cbn [bind].
  assert (E : exists ss, mapM (fun x => do s <- cu_args k x; Ok (x, s)) xs = Ok ss /\ forall c, In c (all_indices d') -> map (fun p => (vblk (fst p), voff (fst p) + dot (snd p) c)) ss = map (fun x => cell x (phi c)) xs).
  { clear - Fx. induction Fx as [|x xs (s & E & D) F IH]; [now exists []|]. destruct IH as (ss & E1 & D1). exists ((x, s) :: ss). cbn [mapM]. rewrite E. cbn [bind]. rewrite E1. split; [reflexivity|].
    intros c I. cbn [map fst snd]. rewrite D, D1 by assumption. reflexivity. }
  destruct E as (ss & -> & Ds). cbn [bind]. destruct (cu_ok g b); [|reflexivity]. apply f_equal. unfold entriesd. rewrite <- P, map_map.
  transitivity (map (fun c => ((vblk r, voff r + dot rs c), map (fun p => (vblk (fst p), voff (fst p) + dot (snd p) c)) ss)) (map co (cu_threads g b))); [now rewrite map_map|].
  rewrite T. apply map_ext_in. intros c I. now rewrite Dr, Ds.
Qed.
(* the threads of the seven kernels *)
Lemma flat_map_single {A B} (f : A -> B) l : flat_map (fun a => [f a]) l = map f l.
Proof. induction l as [|a l IH]; cbn; [reflexivity|now rewrite IH]. Qed.
Lemma th_t a : map k_t (cu_threads (1, 1, 1) (a, 1, 1)) = all_indices [a].
Proof. unfold cu_threads. change (zrange 1) with [0]. cbn [flat_map map app all_indices]. rewrite !app_nil_r, !flat_map_single, map_map. reflexivity. Qed.
Lemma th_tt a b : map k_tt (cu_threads (1, 1, 1) (a, b, 1)) = all_indices [a; b].
Proof.
  unfold cu_threads. change (zrange 1) with [0]. cbn [flat_map map app all_indices]. rewrite !app_nil_r, map_flat_map. apply flat_map_ext. intro i. rewrite !flat_map_single, !map_map. reflexivity.
Qed.
Lemma th_ttt a b c : map k_ttt (cu_threads (1, 1, 1) (a, b, c)) = all_indices [a; b; c].
Proof.
  unfold cu_threads. change (zrange 1) with [0]. cbn [flat_map map app all_indices]. rewrite !app_nil_r, map_flat_map. apply flat_map_ext. intro i. rewrite !map_flat_map. apply flat_map_ext. intro j. rewrite !flat_map_single, !map_map. reflexivity.
Qed.
Lemma th_bt a b : map k_bt (cu_threads (a, 1, 1) (b, 1, 1)) = all_indices [a; b].
Proof.
  unfold cu_threads. change (zrange 1) with [0]. cbn [flat_map map app all_indices]. rewrite map_flat_map. apply flat_map_ext. intro i. rewrite !app_nil_r, !flat_map_single, !map_map. reflexivity.
Qed.
Lemma th_btt a b c : map k_btt (cu_threads (a, 1, 1) (b, c, 1)) = all_indices [a; b; c].
Proof.
  unfold cu_threads. change (zrange 1) with [0]. cbn [flat_map map app all_indices]. rewrite map_flat_map. apply flat_map_ext. intro i. rewrite !app_nil_r, !map_flat_map. apply flat_map_ext. intro j. rewrite !flat_map_single, !map_map. reflexivity.
Qed.
Lemma th_bbt a b c : map k_bbt (cu_threads (a, b, 1) (c, 1, 1)) = all_indices [a; b; c].
Proof.
  unfold cu_threads. change (zrange 1) with [0]. cbn [flat_map map app all_indices]. rewrite map_flat_map. apply flat_map_ext. intro i. rewrite !map_flat_map. apply flat_map_ext. intro j. rewrite !app_nil_r, !flat_map_single, !map_map. reflexivity.
Qed.
Lemma th_bbbt a b c d : map k_bbbt (cu_threads (a, b, c) (d, 1, 1)) = all_indices [a; b; c; d].
Proof.
  unfold cu_threads. change (zrange 1) with [0]. cbn [flat_map map app all_indices]. rewrite map_flat_map. apply flat_map_ext. intro i. rewrite !map_flat_map. apply flat_map_ext. intro j. rewrite !map_flat_map. apply flat_map_ext. intro k.
  rewrite !flat_map_single, !map_map. reflexivity.
Qed.
(* a last side split in pieces of 1024 *)
Lemma ai1 n : all_indices [n] = map (fun i => [i]) (zrange n).
Proof. cbn [all_indices map]. apply flat_map_single. Qed.
Lemma split1 q : 0 <= q -> map (fun c => match c with [u; t] => [u * 1024 + t] | _ => [] end) (all_indices [q; 1024]) = all_indices [1024 * q].
Proof.
  intro H. rewrite (Z.mul_comm 1024 q). rewrite ai1, zrange_mul by lia. change (all_indices [q; 1024]) with (flat_map (fun i => map (cons i) (all_indices [1024])) (zrange q)). rewrite ai1.
  rewrite !map_flat_map. apply flat_map_ext. intro u. rewrite !map_map. apply map_ext. intro t. reflexivity.
Qed.
Lemma split2 a q : 0 <= q -> map (fun c => match c with [i; u; t] => [i; u * 1024 + t] | _ => [] end) (all_indices [a; q; 1024]) = all_indices [a; 1024 * q].
Proof.
  intro H. pose proof (split1 q H) as S1. set (L := all_indices [q; 1024]) in *. change (all_indices [a; q; 1024]) with (flat_map (fun i => map (cons i) L) (zrange a)).
  change (all_indices [a; 1024 * q]) with (flat_map (fun i => map (cons i) (all_indices [1024 * q])) (zrange a)). rewrite <- S1.
  rewrite map_flat_map. apply flat_map_ext. intro i. rewrite !map_map. apply map_ext_in. intros c I.
  apply in_all_indices in I. inversion I as [|x2 ? l2 ? H2 I2]; subst. inversion I2 as [|x3 ? l3 ? H3 I3]; subst. inversion I3; subst. reflexivity.
Qed.
Lemma split3 a b q : 0 <= q -> map (fun c => match c with [i; j; u; t] => [i; j; u * 1024 + t] | _ => [] end) (all_indices [a; b; q; 1024]) = all_indices [a; b; 1024 * q].
Proof.
  intro H. pose proof (split2 b q H) as S2. set (L := all_indices [b; q; 1024]) in *. change (all_indices [a; b; q; 1024]) with (flat_map (fun i => map (cons i) L) (zrange a)).
  change (all_indices [a; b; 1024 * q]) with (flat_map (fun i => map (cons i) (all_indices [b; 1024 * q])) (zrange a)). rewrite <- S2.
  rewrite map_flat_map. apply flat_map_ext. intro i. rewrite !map_map. apply map_ext_in. intros c I.
  apply in_all_indices in I. inversion I as [|x1 ? l1 ? H1 I1]; subst. inversion I1 as [|x2 ? l2 ? H2 I2]; subst. inversion I2 as [|x3 ? l3 ? H3 I3]; subst. inversion I3; subst. reflexivity.
Qed.

(* ---- the plans ---- *)
Definition alike (n : nat) (r : view) (xs : list view) : Prop := Forall (fun v => length (vstr v) = n) (r :: xs).
Ltac strs H := eapply Forall_impl; [|exact H]; let v := fresh "v" in let E := fresh "E" in intros v E; cbn beta in E;
  destruct (vstr v) as [|?s0 [|?s1 [|?s2 [|]]]] eqn:?; try discriminate E.
Ltac arg v := unfold cu_args; repeat match goal with H : vstr v = _ |- _ => rewrite !H end; cbn [mapM fst snd bind zget vget Z.to_nat nth_error]; eexists.
Ltac idx I := apply in_all_indices in I; repeat match goal with H : in_range _ _ |- _ => inversion H; clear H; subst | H : Forall2 _ _ _ |- _ => inversion H; clear H; subst end.
Ltac go A := strs A; eexists; (split; [unfold cu_args; match goal with H : vstr _ = _ |- _ => rewrite H end; cbn -[Z.mul]; reflexivity|]); let c := fresh "c" in let I := fresh "I" in intros c I; idx I;
  cbn [dot]; lia.
Section L.
Context (r : view) (xs : list view).
Notation L g b co k d := (cu_launch g b co k r xs = Ok (if cu_ok g b then entriesd d r xs else [])).
Lemma l_t n : alike 1 r xs -> L (1, 1, 1) (n, 1, 1) k_t [(1, 0)] [n].
Proof. intros A. eapply (launch_ok _ _ _ _ _ _ _ (fun c => c) [n]); [apply th_t|apply map_id|go A]. Qed.
Lemma l_bt1 q : alike 1 r xs -> 0 <= q -> L (q, 1, 1) (1024, 1, 1) k_bt [(1024, 0); (1, 0)] [1024 * q].
Proof. intros A H. eapply launch_ok; [apply th_bt|apply split1; lia|go A]. Qed.
Lemma l_tt a b : alike 2 r xs -> L (1, 1, 1) (a, b, 1) k_tt [(1, 0); (1, 1)] [a; b].
Proof. intros A. eapply (launch_ok _ _ _ _ _ _ _ (fun c => c) [a; b]); [apply th_tt|apply map_id|go A]. Qed.
Lemma l_bt a b : alike 2 r xs -> L (a, 1, 1) (b, 1, 1) k_bt [(1, 0); (1, 1)] [a; b].
Proof. intros A. eapply (launch_ok _ _ _ _ _ _ _ (fun c => c) [a; b]); [apply th_bt|apply map_id|go A]. Qed.
Lemma l_bbt2 a q : alike 2 r xs -> 0 <= q -> L (a, q, 1) (1024, 1, 1) k_bbt [(1, 0); (1024, 1); (1, 1)] [a; 1024 * q].
Proof. intros A H. eapply launch_ok; [apply th_bbt|apply split2; lia|go A]. Qed.
Lemma l_ttt a b c : alike 3 r xs -> L (1, 1, 1) (a, b, c) k_ttt [(1, 0); (1, 1); (1, 2)] [a; b; c].
Proof. intros A. eapply (launch_ok _ _ _ _ _ _ _ (fun c => c) [a; b; c]); [apply th_ttt|apply map_id|go A]. Qed.
Lemma l_btt a b c : alike 3 r xs -> L (a, 1, 1) (b, c, 1) k_btt [(1, 0); (1, 1); (1, 2)] [a; b; c].
Proof. intros A. eapply (launch_ok _ _ _ _ _ _ _ (fun c => c) [a; b; c]); [apply th_btt|apply map_id|go A]. Qed.
Lemma l_bbt a b c : alike 3 r xs -> L (a, b, 1) (c, 1, 1) k_bbt [(1, 0); (1, 1); (1, 2)] [a; b; c].
Proof. intros A. eapply (launch_ok _ _ _ _ _ _ _ (fun c => c) [a; b; c]); [apply th_bbt|apply map_id|go A]. Qed.
Lemma l_bbbt a b q : alike 3 r xs -> 0 <= q -> L (a, b, q) (1024, 1, 1) k_bbbt [(1, 0); (1, 1); (1024, 2); (1, 2)] [a; b; 1024 * q].
Proof. intros A Hq. eapply launch_ok; [apply th_bbbt|apply split3; lia|go A]. Qed.
End L.
Lemma ok_true gx gy gz nx ny nz : 1 <= gx <= 2147483647 -> 1 <= gy <= 65535 -> 1 <= gz <= 65535 -> 1 <= nx <= 1024 -> 1 <= ny <= 1024 -> 1 <= nz <= 64 -> nx * ny * nz <= 1024 ->
  cu_ok (gx, gy, gz) (nx, ny, nz) = true.
Proof. intros. unfold cu_ok. rewrite !andb_true_iff, ?Z.leb_le. lia. Qed.
Lemma ok_inv gx gy gz nx ny nz : cu_ok (gx, gy, gz) (nx, ny, nz) = true -> 1 <= gx <= 2147483647 /\ 1 <= gy <= 65535 /\ 1 <= gz <= 65535 /\ 1 <= nx <= 1024 /\ 1 <= ny <= 1024 /\ 1 <= nz <= 64 /\ nx * ny * nz <= 1024.
Proof. unfold cu_ok. rewrite !andb_true_iff, ?Z.leb_le. lia. Qed.
Lemma same_dims (r : view) xs : Forall (fun x => vdims x = vdims r) xs -> forallb (fun x => eqlb (vdims r) (vdims x)) xs = true.
Proof. intro F. apply forallb_forall. intros x I. rewrite Forall_forall in F. rewrite (F x I). apply eqlb_refl. Qed.
Lemma alike_of n r xs : length (vdims r) = n -> vwf r -> Forall (fun x => vwf x /\ vdims x = vdims r) xs -> alike n r xs.
Proof. intros E [L _] F. constructor; [congruence|]. eapply Forall_impl; [|exact F]. intros x [[Lx _] D]. congruence. Qed.

Lemma plan_fits r xs : cu_fits (vdims r) -> vwf r -> Forall (fun x => vwf x /\ vdims x = vdims r) xs ->
  exists plan, cu_plan r xs = Ok plan /\ concat plan = entries r xs.
Proof.
  intros H W F. assert (S0 : forallb (fun x => eqlb (vdims r) (vdims x)) xs = true) by (apply same_dims; eapply Forall_impl; [|exact F]; now intros x [_ ?]).
  unfold cu_plan. rewrite S0. unfold assrt. rewrite <- entriesd_full. pose proof (alike_of (length (vdims r)) r xs eq_refl W F) as A.
  destruct (vdims r) as [|a [|b [|c [|]]]]; try (now destruct H); cbn [length] in A.
  - destruct H as [H|[H M]].
    + replace (1024 <? a) with false by lia. cbn [bind]. rewrite (Z.mod_small a 1024) by lia. destruct (0 <? a) eqn:E; cbn [bind].
      * rewrite l_t by exact A. rewrite ok_true by lia. cbn [bind]. eexists. split; [reflexivity|]. cbn [concat app]. now rewrite app_nil_r.
      * assert (a = 0) by lia. subst. now exists [].
    + replace (1024 <? a) with true by lia. rewrite M. cbn [bind Z.ltb Z.compare]. pose proof (Z_div_mod_eq_full a 1024) as Q. rewrite l_bt1 by (try exact A; lia). rewrite ok_true by lia. cbn [bind app concat]. eexists.
      split; [reflexivity|]. cbn [concat]. rewrite app_nil_r. do 2 f_equal. lia.
  - destruct H as (Ha & Hb & H). destruct (a * b <? 128) eqn:E.
    + rewrite l_tt by exact A. rewrite ok_true by nia. eexists. split; [reflexivity|]. cbn [concat]. now rewrite app_nil_r.
    + destruct (b <=? 1024) eqn:E1.
      * rewrite l_bt by exact A. rewrite ok_true by lia. eexists. split; [reflexivity|]. cbn [concat]. now rewrite app_nil_r.
      * destruct H as [H|[M H]]; [lia|]. pose proof (Z_div_mod_eq_full b 1024) as Q. rewrite l_bbt2 by (try exact A; lia). rewrite M. rewrite ok_true by lia. cbn [bind Z.ltb Z.compare]. eexists. split; [reflexivity|]. cbn [concat]. rewrite app_nil_r.
        do 3 f_equal. lia.
  - destruct H as (Ha & Hb & Hc & H). destruct (a * b * c <? 128) eqn:E.
    + assert (c <= 64) by (destruct H as [H|[H|H]]; nia). assert (a * b * c < 128) as E' by lia. assert (a * b < 128 /\ a < 128 /\ b < 128) by nia.
      rewrite l_ttt by exact A. rewrite ok_true by lia. eexists. split; [reflexivity|]. cbn [concat]. now rewrite app_nil_r.
    + destruct (b * c <? 128) eqn:E1.
      * assert (b < 128 /\ c < 128) by nia. rewrite l_btt by exact A. rewrite ok_true by lia. eexists. split; [reflexivity|]. cbn [concat]. now rewrite app_nil_r.
      * destruct H as [H|[H|(H & Hb2 & H2)]]; try lia. destruct (c <=? 1024) eqn:E2.
        -- rewrite l_bbt by exact A. rewrite ok_true by lia. eexists. split; [reflexivity|]. cbn [concat]. now rewrite app_nil_r.
        -- destruct H2 as [H2|[M H2]]; [lia|]. pose proof (Z_div_mod_eq_full c 1024) as Q. rewrite l_bbbt by (try exact A; lia). rewrite M. rewrite ok_true by lia. cbn [bind Z.ltb Z.compare]. eexists. split; [reflexivity|]. cbn [concat].
           rewrite app_nil_r. do 4 f_equal. lia.
Qed.

Lemma in_entd e d r xs : In e (entriesd d r xs) -> exists ix, in_range ix d /\ e = (cell r ix, map (fun x => cell x ix) xs).
Proof. intro I. apply in_map_iff in I. destruct I as (ix & <- & I). exists ix. split; [now apply in_all_indices|reflexivity]. Qed.
Lemma in_if {A} (e : A) (b : bool) l : In e (if b then l else []) -> b = true /\ In e l.
Proof. destruct b; [auto|intros []]. Qed.
Lemma rng_cons ix d ds : in_range ix (d :: ds) -> exists i ix', ix = i :: ix' /\ 0 <= i < d /\ in_range ix' ds.
Proof. intro H. inversion H as [|i ? l ? Hi Hl]; subst. now exists i, l. Qed.
Lemma rng_nil ix : in_range ix [] -> ix = [].
Proof. intro H. now inversion H. Qed.
Ltac rng := repeat match goal with H : in_range _ (_ :: _) |- _ => apply rng_cons in H; destruct H as (?i & ?ix & -> & ? & H) | H : in_range _ [] |- _ => apply rng_nil in H; subst end.
Ltac hit I := apply in_if in I; let O := fresh "O" in let ix := fresh "ix" in let R := fresh "R" in destruct I as [O I]; apply ok_inv in O; apply in_entd in I; destruct I as (ix & R & ->); exists ix; rng;
  (split; [unfold in_range; repeat (apply Forall2_cons; [first [lia|nia]|]); apply Forall2_nil|split; [cbn [cu_missed]; first [lia|nia]|reflexivity]]).
Lemma plan_part r xs : vwf r -> Forall (fun x => vwf x /\ vdims x = vdims r) xs ->
  exists plan, cu_plan r xs = Ok plan /\ forall e, In e (concat plan) -> exists ix, in_range ix (vdims r) /\ ~ cu_missed (vdims r) ix /\ e = (cell r ix, map (fun x => cell x ix) xs).
Proof.
  intros W F. assert (S0 : forallb (fun x => eqlb (vdims r) (vdims x)) xs = true) by (apply same_dims; eapply Forall_impl; [|exact F]; now intros x [_ ?]).
  unfold cu_plan. rewrite S0. unfold assrt. pose proof (alike_of (length (vdims r)) r xs eq_refl W F) as A. destruct W as [_ W].
  destruct (vdims r) as [|a [|b [|c [|]]]]; try (exists []; split; [reflexivity|intros e []]); cbn [length] in A.
  - inversion W as [|? ? Ha _]; subst. pose proof (Z_div_mod_eq_full a 1024) as Q. pose proof (Z.mod_pos_bound a 1024 ltac:(lia)) as B.
    assert (Hs : a < 1024 -> a / 1024 = 0) by (intro; apply Z.div_small; lia).
    destruct (1024 <? a) eqn:E1; destruct (0 <? a mod 1024) eqn:E2; cbn [bind]; rewrite ?l_bt1, ?l_t by (exact A || lia); cbn [bind app]; (eexists; split; [reflexivity|]); cbn [concat]; intros e I; rewrite ?app_nil_r, ?in_app_iff in I.
    + destruct I as [I|I]; hit I.
    + hit I.
    + hit I.
    + destruct I.
  - inversion W as [|? ? Ha W1]; subst. inversion W1 as [|? ? Hb _]; subst. pose proof (Z_div_mod_eq_full b 1024) as Q. pose proof (Z.mod_pos_bound b 1024 ltac:(lia)) as B.
    destruct (a * b <? 128) eqn:E; [rewrite l_tt by exact A; eexists; split; [reflexivity|]; cbn [concat]; intros e I; rewrite app_nil_r in I; hit I|].
    destruct (b <=? 1024) eqn:E1; [rewrite l_bt by exact A; eexists; split; [reflexivity|]; cbn [concat]; intros e I; rewrite app_nil_r in I; hit I|].
    rewrite l_bbt2 by (exact A || lia). cbn [bind]. destruct (0 <? b mod 1024) eqn:E2; [rewrite l_bt by exact A|]; (eexists; split; [reflexivity|]); cbn [concat]; intros e I; rewrite ?app_nil_r, ?in_app_iff in I.
    + destruct I as [I|I]; hit I.
    + hit I.
  - inversion W as [|? ? Ha W1]; subst. inversion W1 as [|? ? Hb W2]; subst. inversion W2 as [|? ? Hc _]; subst. pose proof (Z_div_mod_eq_full c 1024) as Q. pose proof (Z.mod_pos_bound c 1024 ltac:(lia)) as B.
    destruct (a * b * c <? 128) eqn:E; [rewrite l_ttt by exact A; eexists; split; [reflexivity|]; cbn [concat]; intros e I; rewrite app_nil_r in I; hit I|].
    destruct (b * c <? 128) eqn:E0; [rewrite l_btt by exact A; eexists; split; [reflexivity|]; cbn [concat]; intros e I; rewrite app_nil_r in I; hit I|].
    destruct (c <=? 1024) eqn:E1; [rewrite l_bbt by exact A; eexists; split; [reflexivity|]; cbn [concat]; intros e I; rewrite app_nil_r in I; hit I|].
    rewrite l_bbbt by (exact A || lia). cbn [bind]. destruct (0 <? c mod 1024) eqn:E2; [rewrite l_bbt by exact A|]; (eexists; split; [reflexivity|]); cbn [concat]; intros e I; rewrite ?app_nil_r, ?in_app_iff in I.
    + destruct I as [I|I]; hit I.
    + hit I.
Qed.
Lemma launches_done {V} (f : V -> list V -> V) r xs m : cu_fits (vdims r) -> vwf r -> distinct_cells r -> readable m r ->
  Forall (fun x => vwf x /\ vdims x = vdims r /\ readable m x /\ no_clobber r x) xs ->
  exists plan, cu_plan r xs = Ok plan /\ forall orders, any_order plan orders -> exists m', cu_exec f orders m = Ok m' /\ done f r xs m m'.
Proof.
  intros H W D Rr F. destruct (plan_fits r xs H W) as (plan & E & P); [eapply Forall_impl; [|exact F]; intros x0 Hx0; cbn beta in Hx0; tauto|]. exists plan. split; [exact E|]. intros orders O. rewrite exec_run.
  apply (elementwise_of_run f r xs m (concat orders) W D Rr F). rewrite <- P. now apply order_concat.
Qed.
Lemma launches_missed {V} (f : V -> list V -> V) r xs m : vwf r -> distinct_cells r -> readable m r ->
  Forall (fun x => vwf x /\ vdims x = vdims r /\ readable m x) xs ->
  exists plan, cu_plan r xs = Ok plan /\ forall orders, any_order plan orders -> exists m', cu_exec f orders m = Ok m' /\
    (forall ix, in_range ix (vdims r) -> cu_missed (vdims r) ix -> elem m' r ix = elem m r ix) /\ untouched m m' r.
Proof.
  intros W D Rr F. destruct (plan_part r xs W) as (plan & E & P); [eapply Forall_impl; [|exact F]; intros x0 Hx0; cbn beta in Hx0; tauto|]. exists plan. split; [exact E|]. intros orders O. rewrite exec_run.
  assert (P' : forall e, In e (concat orders) -> exists ix, in_range ix (vdims r) /\ ~ cu_missed (vdims r) ix /\ e = (cell r ix, map (fun x => cell x ix) xs)).
  { intros e I. apply P. eapply Permutation_in; [apply order_concat; exact O|exact I]. }
  destruct (run_total f (concat orders) m) as [m' Em].
  { intros e I. destruct (P' e I) as (ix & Rx & _ & ->). cbn [fst snd]. split.
    - rewrite <- elem_cell by (apply W || exact Rx). now apply Rr.
    - apply Forall_forall. intros p Ip. apply in_map_iff in Ip. destruct Ip as (x & <- & Ix). rewrite Forall_forall in F. destruct (F x Ix) as (Wx & Dx & Rdx). rewrite <- elem_cell by (apply Wx || now rewrite Dx). apply Rdx. now rewrite Dx. }
  exists m'. split; [exact Em|]. split.
  - intros ix R M. rewrite !elem_cell by (apply W || exact R). apply (run_untouched f _ _ _ _ Em). intro I. apply in_map_iff in I. destruct I as (e & Ee & I). destruct (P' e I) as (jx & Rj & Nj & ->). cbn [fst] in Ee.
    assert (jx = ix) by (apply D; try assumption; rewrite !vaddr_cell by (apply W || assumption); now rewrite Ee). subst. tauto.
  - intros b a N. change (at_ m' (b, a) = at_ m (b, a)). apply (run_untouched f _ _ _ _ Em). intro I. apply in_map_iff in I. destruct I as (e & Ee & I). destruct (P' e I) as (jx & Rj & Nj & ->). cbn [fst] in Ee.
    apply (N jx Rj). rewrite vaddr_cell by (apply W || assumption). now rewrite Ee.
Qed.
Lemma zeros_in dims : Forall (fun d => 0 < d <= 2147483647) dims -> in_range (map (fun _ => 0) dims) dims.
Proof. intro F. induction F as [|d ds H F IH]; constructor; [lia|exact IH]. Qed.
Lemma fits_or_missed dims : Forall (fun d => 0 < d <= 2147483647) dims -> ~ cu_fits dims -> exists ix, in_range ix dims /\ cu_missed dims ix.
Proof.
  intros F N. destruct dims as [|a [|b [|c [|d ds]]]].
  - exists []. split; [constructor|exact I].
  - inversion F as [|? ? Ha _]; subst. cbn [cu_fits] in N. pose proof (Z_div_mod_eq_full a 1024) as Q. pose proof (Z.mod_pos_bound a 1024 ltac:(lia)) as B. exists [a - 1]. split; [repeat constructor; lia|]. cbn [cu_missed]. lia.
  - inversion F as [|? ? Ha F1]; subst. inversion F1 as [|? ? Hb _]; subst. cbn [cu_fits] in N. pose proof (Z_div_mod_eq_full b 1024) as Q. pose proof (Z.mod_pos_bound b 1024 ltac:(lia)) as B. exists [0; b - 1]. split; [repeat constructor; lia|]. cbn [cu_missed]. lia.
  - inversion F as [|? ? Ha F1]; subst. inversion F1 as [|? ? Hb F2]; subst. inversion F2 as [|? ? Hc _]; subst. cbn [cu_fits] in N. pose proof (Z_div_mod_eq_full c 1024) as Q. pose proof (Z.mod_pos_bound c 1024 ltac:(lia)) as B.
    exists [0; 0; c - 1]. split; [repeat constructor; lia|]. cbn [cu_missed]. destruct (Z_lt_dec (a * b * c) 128); destruct (Z_lt_dec (b * c) 128); nia.
  - exists (map (fun _ => 0) (a :: b :: c :: d :: ds)). split; [now apply zeros_in|exact I].
Qed.
(* ---- the remainder is added twice ---- *)
Definition trunc (d : list Z) (v : view) : view := View (vblk v) (voff v) d (vstr v).
Lemma entriesd_trunc d r xs : entriesd d r xs = entries (trunc d r) (map (trunc d) xs).
Proof. unfold entriesd, entries. cbn [vdims trunc]. apply map_ext. intro ix. rewrite map_map. reflexivity. Qed.
Lemma trunc_elem {V} (m : mem V) v n k i : vdims v = [n] -> length (vstr v) = 1%nat -> elem m (trunc [k] v) [i] = elem m v [i].
Proof. reflexivity. Qed.
Lemma same_values {V} (m m1 : mem V) xs ix us us2 : Forall2 (fun x u => elem m x ix = Some u) xs us -> Forall2 (fun x u => elem m1 x ix = Some u) xs us2 ->
  (forall x, In x xs -> elem m1 x ix = elem m x ix) -> us = us2.
Proof.
  intro H. revert us2. induction H as [|x u xs us E H IH]; intros us2 H2 X; inversion H2 as [|? u2 ? us2' E2 H2']; subst; [reflexivity|]. rewrite (X x (or_introl eq_refl)) in E2. f_equal; [congruence|]. apply IH; [assumption|]. intros y I. apply X. now right.
Qed.
Lemma launches_twice {V} (f : V -> list V -> V) r xs m n : vdims r = [n] -> 1024 < n <= 2147483647 -> 0 < n mod 1024 -> vwf r -> distinct_cells r -> readable m r ->
  Forall (fun x => vwf x /\ vdims x = vdims r /\ readable m x /\ disjoint_views r x) xs ->
  exists plan, cu_plan r xs = Ok plan /\ forall orders, any_order plan orders -> exists m', cu_exec f orders m = Ok m' /\
    forall i, 0 <= i < n -> exists v us, elem m r [i] = Some v /\ Forall2 (fun x u => elem m x [i] = Some u) xs us /\
      elem m' r [i] = Some (if i <? n mod 1024 then f (f v us) us else if i <? 1024 * (n / 1024) then f v us else v).
Proof.
  intros Dn Hn Hm W D Rr F. assert (F0 : Forall (fun x => vwf x /\ vdims x = vdims r) xs) by (eapply Forall_impl; [|exact F]; intros x0 Hx0; cbn beta in Hx0; tauto).
  pose proof (alike_of 1 r xs ltac:(now rewrite Dn) W F0) as A. pose proof (Z_div_mod_eq_full n 1024) as Q. pose proof (Z.mod_pos_bound n 1024 ltac:(lia)) as B.
  set (d1 := [1024 * (n / 1024)]). set (d2 := [n mod 1024]). exists [entriesd d1 r xs; entriesd d2 r xs]. split.
  { unfold cu_plan. rewrite same_dims by (eapply Forall_impl; [|exact F]; intros x0 Hx0; cbn beta in Hx0; tauto). unfold assrt. rewrite Dn. replace (1024 <? n) with true by lia. replace (0 <? n mod 1024) with true by lia.
    rewrite l_bt1, l_t by (exact A || lia). rewrite !ok_true by lia. reflexivity. }
  intros orders O. inversion O as [|o1 ? orders' ? P1 O1]; subst. inversion O1 as [|o2 ? orders'' ? P2 O2]; subst. inversion O2; subst. clear O O1 O2.
  assert (T : forall k, 0 <= k <= n -> forall mm : mem V, readable mm r -> Forall (readable mm) xs -> vwf (trunc [k] r) /\ distinct_cells (trunc [k] r) /\ readable mm (trunc [k] r) /\
    Forall (fun x => vwf x /\ vdims x = vdims (trunc [k] r) /\ readable mm x /\ no_clobber (trunc [k] r) x) (map (trunc [k]) xs)).
  { intros k Hk mm Rm Fm. assert (In1 : forall ix, in_range ix [k] -> in_range ix [n]) by (intros ix H; inversion H as [|i ? l ? Hi Hl]; subst; constructor; [lia|exact Hl]).
    split; [|split; [|split]].
    - split; [cbn; destruct W as [L _]; rewrite Dn in L; exact L|repeat constructor; lia].
    - intros ix jx Hi Hj E. cbn [vdims trunc] in Hi, Hj. apply D; [rewrite Dn; now apply In1|rewrite Dn; now apply In1|exact E].
    - intros ix Hi. cbn [vdims trunc] in Hi. change (elem mm (trunc [k] r) ix) with (elem mm r ix). apply Rm. rewrite Dn. now apply In1.
    - apply Forall_forall. intros x' I. apply in_map_iff in I. destruct I as (x & <- & I). rewrite Forall_forall in F, Fm. destruct (F x I) as (Wx & Dx & _ & Nx). split; [|split; [reflexivity|split]].
      + split; [cbn; destruct Wx as [L _]; rewrite Dx, Dn in L; exact L|repeat constructor; lia].
      + intros ix Hi. cbn [vdims trunc] in Hi. change (elem mm (trunc [k] x) ix) with (elem mm x ix). apply (Fm x I). rewrite Dx, Dn. now apply In1.
      + intros ix jx Hi Hj E. exfalso. cbn [vdims trunc] in Hi, Hj. apply (Nx ix jx); [rewrite Dn; now apply In1|rewrite Dx, Dn; now apply In1|exact E]. }
  assert (Fr : Forall (readable m) xs) by (eapply Forall_impl; [|exact F]; intros x0 Hx0; cbn beta in Hx0; tauto).
  rewrite entriesd_trunc in P1, P2.
  destruct (T (1024 * (n / 1024)) ltac:(lia) m Rr Fr) as (W1 & D1 & R1 & F1). destruct (elementwise_of_run f _ _ m o1 W1 D1 R1 F1 P1) as (m1 & E1 & EW1 & U1).
  assert (Ux : forall v i, vwf v -> vdims v = [n] -> 0 <= i < n -> (forall j, 0 <= j < 1024 * (n / 1024) -> vaddr v [i] <> vaddr r [j]) -> elem m1 v [i] = elem m v [i]).
  { intros v i Wv Dv Hi Nv. assert (Ri : in_range [i] (vdims v)) by (rewrite Dv; repeat constructor; lia). rewrite !elem_cell by (apply Wv || exact Ri). apply (U1 (fst (cell v [i])) (snd (cell v [i]))). intros jx Hj E. cbn [vdims trunc] in Hj.
    apply rng_cons in Hj. destruct Hj as (j & jx' & -> & Hj & Hn0). apply rng_nil in Hn0. subst jx'. apply (Nv j Hj). rewrite vaddr_cell by (apply Wv || exact Ri). symmetry. exact E. }
  assert (Xs : forall x, In x xs -> forall i, 0 <= i < n -> elem m1 x [i] = elem m x [i]).
  { intros x I i Hi. rewrite Forall_forall in F. destruct (F x I) as (Wx & Dx & _ & Nx). apply Ux; [exact Wx|congruence|exact Hi|]. intros j Hj E. apply (Nx [j] [i]); [rewrite Dn; repeat constructor; lia|rewrite Dx, Dn; repeat constructor; lia|now symmetry]. }
  assert (Hr1 : forall i, 1024 * (n / 1024) <= i < n -> elem m1 r [i] = elem m r [i]).
  { intros i Hi. apply Ux; [exact W|exact Dn|lia|]. intros j Hj E. assert (X : [i] = [j]) by (apply D; [rewrite Dn; repeat constructor; lia|rewrite Dn; repeat constructor; lia|exact E]). injection X as ->. lia. }
  assert (Rr1 : readable m1 r).
  { intros ix Hi. pose proof Hi as Hi'. rewrite Dn in Hi. apply rng_cons in Hi. destruct Hi as (i & ix' & -> & Hi & Hn0). apply rng_nil in Hn0. subst. destruct (Z_lt_dec i (1024 * (n / 1024))) as [Hl|Hl].
    - destruct (EW1 [i]) as (v & us & _ & _ & E); [cbn [vdims trunc]; constructor; [lia|constructor]|]. change (elem m1 r [i] = Some (f v us)) in E. congruence.
    - rewrite Hr1 by lia. now apply Rr. }
  assert (Fr1 : Forall (readable m1) xs).
  { apply Forall_forall. intros x I ix Hi. pose proof F as F'. rewrite Forall_forall in F'. destruct (F' x I) as (Wx & Dx & Rx & _). pose proof Hi as Hi'. rewrite Dx, Dn in Hi. apply rng_cons in Hi. destruct Hi as (i & ix' & -> & Hi & Hn0). apply rng_nil in Hn0. subst.
    rewrite (Xs x I i Hi). now apply Rx. }
  destruct (T (n mod 1024) ltac:(lia) m1 Rr1 Fr1) as (W2 & D2 & R2 & F2). destruct (elementwise_of_run f _ _ m1 o2 W2 D2 R2 F2 P2) as (m2 & E2 & EW2 & U2).
  exists m2. split; [rewrite exec_run; cbn [concat]; rewrite app_nil_r; unfold run in *; rewrite foldM_app, E1; exact E2|].
  assert (Hr2 : forall i, n mod 1024 <= i < n -> elem m2 r [i] = elem m1 r [i]).
  { intros i Hi. assert (Ri : in_range [i] (vdims r)) by (rewrite Dn; repeat constructor; lia). rewrite !elem_cell by (apply W || exact Ri). apply (U2 (fst (cell r [i])) (snd (cell r [i]))). intros jx Hj E. cbn [vdims trunc] in Hj.
    apply rng_cons in Hj. destruct Hj as (j & jx' & -> & Hj & Hn0). apply rng_nil in Hn0. subst jx'. assert (X : [j] = [i]); [|injection X as ->; lia]. apply D; [rewrite Dn; repeat constructor; lia|exact Ri|].
    rewrite (vaddr_cell r [i]) by (apply W || exact Ri). exact E. }
  assert (Cv : forall (mm : mem V) i k us, Forall2 (fun x u => elem mm x [i] = Some u) (map (trunc [k]) xs) us -> Forall2 (fun x u => elem mm x [i] = Some u) xs us).
  { intros mm i k us. revert us. clear. induction xs as [|x xs' IH]; intros us H; inversion H; subst; constructor; [assumption|now apply IH]. }
  intros i Hi. destruct (Z_lt_dec i (n mod 1024)) as [Hl|Hl].
  - replace (i <? n mod 1024) with true by lia. destruct (EW1 [i]) as (v & us & Ev & Eu & E); [cbn [vdims trunc]; constructor; [lia|constructor]|]. apply Cv in Eu. exists v, us. split; [exact Ev|]. split; [exact Eu|].
    destruct (EW2 [i]) as (v2 & us2 & Ev2 & Eu2 & E'); [cbn [vdims trunc]; constructor; [lia|constructor]|]. apply Cv in Eu2. change (elem m1 r [i] = Some (f v us)) in E. change (elem m1 r [i] = Some v2) in Ev2. change (elem m2 r [i] = Some (f v2 us2)) in E'. rewrite E', Ev2 in *. injection E as ->.
    replace us2 with us; [reflexivity|]. eapply same_values; [exact Eu|exact Eu2|]. intros x I. now apply Xs.
  - replace (i <? n mod 1024) with false by lia. rewrite Hr2 by lia. destruct (Z_lt_dec i (1024 * (n / 1024))) as [Hk|Hk].
    + replace (i <? 1024 * (n / 1024)) with true by lia. destruct (EW1 [i]) as (v & us & Ev & Eu & E); [cbn [vdims trunc]; constructor; [lia|constructor]|]. apply Cv in Eu. exists v, us. auto.
    + replace (i <? 1024 * (n / 1024)) with false by lia. rewrite Hr1 by lia. assert (Ri : in_range [i] [n]) by (repeat constructor; lia). destruct (elem m r [i]) as [v|] eqn:Ev; [|exfalso; eapply Rr; [rewrite Dn; exact Ri|exact Ev]].
      assert (Ex : exists us, Forall2 (fun x u => elem m x [i] = Some u) xs us).
      { clear - F Dn Ri. induction F as [|x xs' (Wx & Dx & Rx & _) F' IH]; [now exists []|]. destruct IH as [us IH]. destruct (elem m x [i]) as [u|] eqn:E; [exists (u :: us); now constructor|]. exfalso. eapply Rx; [rewrite Dx, Dn; exact Ri|exact E]. }
      destruct Ex as [us Eu]. exists v, us. auto.
Qed.
(* ---- callers ---- *)
Lemma scrunch_vector b o n s : scrunch (View b o [n] [s]) = Ok (View b o [n] [s]).
Proof. reflexivity. Qed.
Lemma scrunch_matrix b o n k : 1 < k < INT_MAX -> scrunch (View b o [n; k] [k; 1]) = Ok (View b o [k * n] [1]).
Proof.
  intro H. unfold scrunch. cbn [vstr vdims vblk voff]. unfold ordering. cbn [length ordering_loop argmin argmin_aux]. replace (1 <? k) with true by lia. cbn [set_nth argmin argmin_aux].
  replace (INT_MAX <? k) with false by (unfold INT_MAX in *; lia). cbn [mapM vget nth_error bind merge_all merge fst snd]. replace (k =? 1 * k) with true by lia. reflexivity.
Qed.
Lemma inc_plan_1024 {V} (eq0 : V -> bool) b o s x : eq0 x = false -> gpu_inc_plan eq0 (View b o [1024] [s]) x = Ok [].
Proof. intro E. unfold gpu_inc_plan. rewrite E. reflexivity. Qed.
Lemma inc_plan_matrix {V} (eq0 : V -> bool) b o n k x : eq0 x = false -> 1 < k < INT_MAX -> n * k = 1024 -> gpu_inc_plan eq0 (View b o [n; k] [k; 1]) x = Ok [].
Proof.
  intros E H P. unfold gpu_inc_plan. rewrite E, scrunch_matrix by exact H. cbn [vdims]. rewrite asize_prod. unfold prod. cbn [fold_right]. replace (n * (k * 1) =? 0) with false by lia. cbn [bind]. rewrite (Z.mul_comm k n), P. reflexivity.
Qed.

(* r.add(x) for other layouts: axes are merged first *)
Lemma addrs_pairs (ax : list (Z * Z2O)) : addrs ax = map (fun ix => (dot (map (fun p => fst (snd p)) ax) ix, dot (map (fun p => snd (snd p)) ax) ix)) (all_indices (map fst ax)).
Proof.
  induction ax as [|[n [s t]] ax IH]; [reflexivity|]. cbn [addrs map all_indices fst snd]. rewrite map_flat_map. apply flat_map_ext. intro i. rewrite IH, !map_map. apply map_ext. intro ix. cbn. f_equal; lia.
Qed.
Lemma merged_done {V} (f : V -> list V -> V) r x (m : mem V) rp xp : vwf r -> Forall (fun s => s < INT_MAX) (vstr r) -> vwf x -> vdims x = vdims r -> prod (vdims r) <> 0 ->
  ~ (vstr x = vstr r /\ is_contiguous (vstr r) (vdims r) = Ok true) -> co_scrunch r x = Ok (rp, xp) -> cu_fits (vdims rp) ->
  distinct_cells r -> readable m r -> readable m x -> no_clobber r x ->
  exists plan, gpu_add_plan r x = Ok plan /\ forall orders, any_order plan orders -> exists m', cu_exec f orders m = Ok m' /\ done f r [x] m m'.
Proof.
  intros Wr Ms Wx Dx Np Nc Es F D Rr Rx Hc. destruct (co_scrunch_ok r x Wr Wx Dx Ms) as (ax & E & P & Fx & _). rewrite E in Es. injection Es as <- <-. cbn [vdims] in F.
  assert (Wp : forall b o (g : Z * Z2O -> Z), vwf (View b o (map fst ax) (map g ax))) by (intros; split; cbn [vdims vstr]; [now rewrite !map_length|unfold nonneg; now rewrite Forall_map]).
  destruct (plan_fits (View (vblk r) (voff r) (map fst ax) (map (fun p => fst (snd p)) ax)) [View (vblk x) (voff x) (map fst ax) (map (fun p => snd (snd p)) ax)]) as (plan & Ep & Ec); [exact F|apply Wp|constructor; [split; [apply Wp|reflexivity]|constructor]|].
  exists plan. split.
  - unfold gpu_add_plan. rewrite Dx, eqlb_refl. cbn [assrt]. rewrite asize_prod. replace (prod (vdims r) =? 0) with false by lia. rewrite E.
    destruct Wr as [Lr Nr]. destruct (is_contiguous (vstr r) (vdims r)) as [c| |] eqn:Ei.
    2,3: exfalso; unfold is_contiguous, is_regular in Ei; rewrite Lr, Nat.eqb_refl in Ei; cbn in Ei; destruct (regular_aux _ _); discriminate.
    cbn [bind]. destruct c; cbn [andb]; [|exact Ep]. destruct (eqlb (vstr r) (vstr x)) eqn:Eq; [|exact Ep]. apply eqlb_eq in Eq. exfalso. apply Nc. now split.
  - intros orders O. rewrite exec_run. apply (elementwise_of_run f r [x] m (concat orders) Wr D Rr); [constructor; [tauto|constructor]|].
    apply (Permutation_trans (order_concat _ _ O)). rewrite Ec, !entries1_addrs. apply Permutation_map. cbn [vstr vdims]. now rewrite <- addrs_pairs.
Qed.
