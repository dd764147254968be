(* Proofs_BGprod3.v -- the products and quotients of batched and gridded tensors as a whole. *)
From Verif Require Import Base BaseFacts Model_Index Model_View Spec_Index Proofs_Index Spec_View Proofs_View Model_Tensor Spec_Tensor Proofs_Tensor Proofs_Tensor2 Proofs_Tensor3 Model_Threads Model_BG Spec_BG Proofs_BG Proofs_BG2 Proofs_BG3 Prop_BG Model_BGprod Spec_BGprod Proofs_BGprod Proofs_BGprod2.
From Coq Require Import Permutation.
Local Open Scope Z_scope.

Lemma shaped_nonneg x b g c : shaped x b g c -> 0 <= b /\ nonneg g /\ nonneg c.
Proof. intros (Ed & _ & _ & N). rewrite Ed in N. inversion N as [|? ? Hb N']; subst. apply Forall_app in N' as (N1 & N2). auto. Qed.
Lemma dom3 x y z bx gx cx by_ gy cy bz gz cz B gd : shaped x bx gx cx -> shaped y by_ gy cy -> shaped z bz gz cz -> 0 < bx -> 0 < by_ -> 0 < bz ->
  fits 1 [bx; by_; bz] B -> fits [] [gx; gy; gz] gd -> gx = gd \/ gy = gd ->
  dominant_batch3 x y z = Ok B /\ dominant_gdims3 x y z = Ok gd /\ 0 <= B /\ nonneg gd /\ Forall (joins B gd) [x; y; z].
Proof.
  intros Hx Hy Hz Px Py Pz FB Fg Hg. split; [apply (C71_batch3 x y z bx gx cx by_ gy cy bz gz cz); assumption|]. split.
  - rewrite (gdims3_is_2 x y z bx gx cx by_ gy cy Hx Hy). unfold dominant_gdims2. rewrite (shaped_gdims _ _ _ _ Hx), (shaped_gdims _ _ _ _ Hy), (shaped_has_grid _ _ _ _ Hx), (shaped_has_grid _ _ _ _ Hy). cbn [bind]. apply two_ok.
    split; [destruct Hg; cbn; auto|]. intros a Ha. apply Fg. cbn in Ha |- *. tauto.
  - destruct (shaped_nonneg _ _ _ _ Hx) as (_ & Nx & _). destruct (shaped_nonneg _ _ _ _ Hy) as (_ & Ny & _). split; [destruct FB as (I & _); cbn in I; intuition lia|]. split; [destruct Hg as [<-|<-]; assumption|].
    destruct FB as (_ & FB). destruct Fg as (_ & Fg). constructor; [|constructor; [|constructor; [|constructor]]]; [exists bx, gx, cx|exists by_, gy, cy|exists bz, gz, cz]; (split; [assumption|]); (split; [apply FB; cbn; auto|apply Fg; cbn; auto]).
Qed.
Lemma dom4 x y z w bx gx cx by_ gy cy bz gz cz bw gw cw B gd : shaped x bx gx cx -> shaped y by_ gy cy -> shaped z bz gz cz -> shaped w bw gw cw -> 0 < bx -> 0 < by_ -> 0 < bz -> 0 < bw ->
  fits 1 [bx; by_; bz; bw] B -> fits [] [gx; gy; gz; gw] gd -> gx = gd \/ gy = gd \/ gw = gd ->
  dominant_batch4 x y z w = Ok B /\ dominant_gdims4 x y z w = Ok gd /\ 0 <= B /\ nonneg gd /\ Forall (joins B gd) [x; y; z; w].
Proof.
  intros Hx Hy Hz Hw Px Py Pz Pw FB Fg Hg. split; [apply (C71_batch4 x y z w bx gx cx by_ gy cy bz gz cz bw gw cw); assumption|]. split.
  - apply (gdims4_is x y z w bx gx cx by_ gy cy bw gw cw Hx Hy Hw). split; [cbn; intuition auto|]. intros a Ha. apply Fg. cbn in Ha |- *. tauto.
  - destruct (shaped_nonneg _ _ _ _ Hx) as (_ & Nx & _). destruct (shaped_nonneg _ _ _ _ Hy) as (_ & Ny & _). destruct (shaped_nonneg _ _ _ _ Hw) as (_ & Nw & _). split; [destruct FB as (I & _); cbn in I; intuition lia|]. split; [destruct Hg as [<-|[<-|<-]]; assumption|].
    destruct FB as (_ & FB). destruct Fg as (_ & Fg). constructor; [|constructor; [|constructor; [|constructor; [|constructor]]]]; [exists bx, gx, cx|exists by_, gy, cy|exists bz, gz, cz|exists bw, gw, cw]; (split; [assumption|]); (split; [apply FB; cbn; auto|apply Fg; cbn; auto 6]).
Qed.
Lemma lone0 x xs b g c nt gd : shaped x b g c -> calm b nt gd -> lone (x :: xs) 0 \/ nt <= 1 \/ gd = [].
Proof. intros Hs [->|Hc]; [left; exists x; split; [reflexivity|eapply shaped_getb; eassumption]|now right]. Qed.
Lemma lone2 x y z xs b g c nt gd : shaped z b g c -> calm b nt gd -> lone (x :: y :: z :: xs) 2 \/ nt <= 1 \/ gd = [].
Proof. intros Hs [->|Hc]; [left; exists z; split; [reflexivity|eapply shaped_getb; eassumption]|now right]. Qed.
(* a sequential traversal has an outcome *)
Lemma over_runs {V} xs B gd target nt f (m : mem V) dB dg : dB = Ok B -> dg = Ok gd -> nonneg gd -> Forall (joins B gd) xs -> lone xs target \/ nt <= 1 -> exists out, over_cells xs dB dg target nt f m out.
Proof.
  intros -> -> Ng J Hl. destruct (setup_ok xs B gd target J Ng) as (cells & bodies & sq & Es & Fc & Fb & Hsq). unfold over_cells. cbn [bind].
  destruct (run_bodies_ok xs cells gd nt (zrange B) bodies Fb 0 (map voff cells)) as (t & Et & _); [rewrite map_length; symmetry; eapply F2_len; eassumption|].
  eexists. exists (t ++ [Ev Return]). split; [|split; [apply in_app_iff; right; now left|reflexivity]]. exists cells, bodies, sq. split; [assumption|]. cbv zeta.
  replace (sq || (nt <=? 1)) with true by (destruct Hl as [Hl|Hl]; [apply Hsq in Hl; now subst|lia]). exists []. now rewrite app_nil_r, Et.
Qed.
Lemma ne_true (c : list Z) : c <> [] -> nonempty c = true. Proof. destruct c; [congruence|reflexivity]. Qed.

Section Ops.
Context {R : cring}.
Add Ring Rring3 : (cth R).
Variable cj : R -> R.
Variable dv : R -> R -> R.
Notation memR := (mem (car R)).
Variables (r x y : bg) (br bx by_ : Z) (gr gx gy cr cx cy : list Z) (B : Z) (gd : list Z) (nt : Z) (m : memR).
Hypothesis (Hr : shaped r br gr cr) (Hx : shaped x bx gx cx) (Hy : shaped y by_ gy cy).
Hypothesis (Pr : 0 < br) (Px : 0 < bx) (Py : 0 < by_) (FB : fits 1 [br; bx; by_] B) (Fg : fits [] [gr; gx; gy] gd).
Hypothesis (Tr : target_ok m r) (Sx : source_ok m r x) (Sy : source_ok m r y) (Cm : calm br nt gd).
Lemma gr_ok : gr = [] \/ gr = gd. Proof. apply Fg. now left. Qed.
Lemma swap_fits {A} (t : A) a b c d : fits t [a; b; c] d -> fits t [a; c; b] d.
Proof. apply fits_perm. constructor. constructor. Qed.
Lemma rot_fits {A} (t : A) a b c d : fits t [a; b; c] d -> fits t [b; c; a] d.
Proof. apply fits_perm. change [b; c; a] with ([b; c] ++ [a]). apply Permutation_cons_append. Qed.
Lemma addc_ok g (G : gr = gd \/ gx = gd) : cx = cr -> cy = [] -> forall out, over_cells3 r x y 0 nt (do_addc g) m out ->
  exists m', out = Ok m' /\ adds m m' r br gr cr B gd cr (fun f => cmul (g (val m y by_ gy cy f)) (val m x bx gx cx f)).
Proof.
  intros -> -> out O. destruct (dom3 r x y br gr cr bx gx cr by_ gy [] B gd) as (EB & Eg & HB & Ng & J); try assumption. destruct (shaped_nonneg _ _ _ _ Hr) as (_ & _ & Nc).
  eapply adds_ok; [exact Hr|assumption|apply gr_ok|now left| |exact EB|exact Eg|assumption|assumption|assumption|exact J|eapply lone0; eassumption|exact O].
  intros c vs m1 Hc Rc Rm U. apply right3 in Rc as (rv & xv & yv & -> & Cr & Cx & Cy). destruct (list_eq_dec Z.eq_dec cr cr) as [_|N]; [|congruence].
  destruct (addc_step m m1 r br gr cr x bx gx y by_ gy c rv xv yv g) as (m2 & E & El & U2); try assumption; [apply Tr|]. exists rv, m2. auto.
Qed.
Lemma prod_ok f h (Hf : forall v a b, f v [a; b] = cadd v (h a b)) (G : gr = gd \/ gx = gd) : cx = cr -> cy = cr -> forall out, over_cells3 r x y 0 nt (fun vs m => match vs with [r; x; y] => reg_or_each f r [x; y] m | _ => UB end) m out ->
  exists m', out = Ok m' /\ adds m m' r br gr cr B gd cr (fun f => h (val m x bx gx cx f) (val m y by_ gy cy f)).
Proof.
  intros -> -> out O. destruct (dom3 r x y br gr cr bx gx cr by_ gy cr B gd) as (EB & Eg & HB & Ng & J); try assumption. destruct (shaped_nonneg _ _ _ _ Hr) as (_ & _ & Nc).
  eapply adds_ok; [exact Hr|assumption|apply gr_ok|now left| |exact EB|exact Eg|assumption|assumption|assumption|exact J|eapply lone0; eassumption|exact O].
  intros c vs m1 Hc Rc Rm U. apply right3 in Rc as (rv & xv & yv & -> & Cr & Cx & Cy). destruct (list_eq_dec Z.eq_dec cr cr) as [_|N]; [|congruence].
  destruct (prod_step m m1 r br gr cr x bx gx y by_ gy c rv xv yv f h Hf) as (m2 & E & El & U2); try assumption; [apply Tr|]. exists rv, m2. auto.
Qed.
Lemma addCX_ok (G : gr = gd \/ gx = gd) : cx = cr -> cy = [] -> forall out, over_cells3 r x y 0 nt (do_addCX cj) m out ->
  exists m', out = Ok m' /\ adds m m' r br gr cr B gd cr (fun f => cmul (val m y by_ gy cy f) (cj (val m x bx gx cx f))).
Proof.
  intros -> -> out O. destruct (dom3 r x y br gr cr bx gx cr by_ gy [] B gd) as (EB & Eg & HB & Ng & J); try assumption. destruct (shaped_nonneg _ _ _ _ Hr) as (_ & _ & Nc).
  eapply adds_ok; [exact Hr|assumption|apply gr_ok|now left| |exact EB|exact Eg|assumption|assumption|assumption|exact J|eapply lone0; eassumption|exact O].
  intros c vs m1 Hc Rc Rm U. apply right3 in Rc as (rv & xv & yv & -> & Cr & Cx & Cy). destruct (list_eq_dec Z.eq_dec cr cr) as [_|N]; [|congruence].
  destruct (addCX_step cj m m1 r br gr cr x bx gx y by_ gy c rv xv yv) as (m2 & E & El & U2); try assumption; [apply Tr|]. exists rv, m2. auto.
Qed.
Lemma inp_op_ok cd (G : gx = gd \/ gy = gd) : cr = [] -> cx = cd -> cy = cd -> cd <> [] -> forall out, over_cells3 x y r 2 nt (do_inp cj) m out ->
  exists m', out = Ok m' /\ adds m m' r br gr cr B gd cd (fun f => cmul (val m x bx gx cx f) (cj (val m y by_ gy cy f))).
Proof.
  intros -> -> -> Ne out O. destruct (dom3 x y r bx gx cd by_ gy cd br gr [] B gd) as (EB & Eg & HB & Ng & J); try assumption; [now apply rot_fits|now apply rot_fits|]. destruct (shaped_nonneg _ _ _ _ Hx) as (_ & _ & Nc).
  eapply adds_ok; [exact Hr|assumption|apply gr_ok|now right| |exact EB|exact Eg|assumption|assumption|assumption|exact J|eapply lone2; eassumption|exact O].
  intros c vs m1 Hc Rc Rm U. apply right3 in Rc as (xv & yv & rv & -> & Cx & Cy & Cr). destruct (list_eq_dec Z.eq_dec [] cd) as [E|_]; [congruence|].
  destruct (inp_step cj m m1 r br gr cd x bx gx y by_ gy c rv xv yv) as (m2 & E & El & U2); try assumption. exists rv, m2. auto.
Qed.
Lemma mprod_op_ok p n q (G : gr = gd \/ gx = gd) : cr = [p; q] -> cx = [p; n] -> cy = [n; q] -> forall out, over_cells3 r x y 0 nt do_mprod m out ->
  exists m', out = Ok m' /\ adds m m' r br gr cr B gd cr (fun f => rsum (map (fun k => cmul (val m x bx gx cx (fst f, [nth 0 (snd f) 0; k])) (val m y by_ gy cy (fst f, [k; nth 1 (snd f) 0]))) (zrange n))).
Proof.
  intros -> -> -> out O. destruct (dom3 r x y br gr [p; q] bx gx [p; n] by_ gy [n; q] B gd) as (EB & Eg & HB & Ng & J); try assumption. destruct (shaped_nonneg _ _ _ _ Hr) as (_ & _ & Nc).
  eapply adds_ok; [exact Hr|assumption|apply gr_ok|now left| |exact EB|exact Eg|assumption|assumption|assumption|exact J|eapply lone0; eassumption|exact O].
  intros c vs m1 Hc Rc Rm U. apply right3 in Rc as (rv & xv & yv & -> & Cr & Cx & Cy). destruct (list_eq_dec Z.eq_dec [p; q] [p; q]) as [_|N]; [|congruence].
  destruct (mprod_step m m1 r br gr x bx gx y by_ gy p n q c rv xv yv) as (m2 & E & El & U2); try assumption; [apply Tr|]. exists rv, m2. auto.
Qed.
Lemma mprod_AH_op_ok p n q (G : gr = gd \/ gx = gd) : cr = [p; q] -> cx = [p; n] -> cy = [q; n] -> forall out, over_cells3 r x y 0 nt do_mprod_AH m out ->
  exists m', out = Ok m' /\ adds m m' r br gr cr B gd cr (fun f => rsum (map (fun k => cmul (val m x bx gx cx (fst f, [nth 0 (snd f) 0; k])) (val m y by_ gy cy (fst f, [nth 1 (snd f) 0; k]))) (zrange n))).
Proof.
  intros -> -> -> out O. destruct (dom3 r x y br gr [p; q] bx gx [p; n] by_ gy [q; n] B gd) as (EB & Eg & HB & Ng & J); try assumption. destruct (shaped_nonneg _ _ _ _ Hr) as (_ & _ & Nc).
  eapply adds_ok; [exact Hr|assumption|apply gr_ok|now left| |exact EB|exact Eg|assumption|assumption|assumption|exact J|eapply lone0; eassumption|exact O].
  intros c vs m1 Hc Rc Rm U. apply right3 in Rc as (rv & xv & yv & -> & Cr & Cx & Cy). destruct (list_eq_dec Z.eq_dec [p; q] [p; q]) as [_|N]; [|congruence].
  destruct (mprod_AH_step m m1 r br gr x bx gx y by_ gy p n q c rv xv yv) as (m2 & E & El & U2); try assumption; [apply Tr|]. exists rv, m2. auto.
Qed.
End Ops.
