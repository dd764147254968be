(* Prop_Keyed.v -- owning containers that find their objects by key: C133, C134. *)
From Coq Require Import Sorted.
From Verif Require Import Base BaseFacts Model_Keyed Spec_Keyed Proofs_Keyed Proofs_Keyed2 Proofs_Keyed3.
Local Open Scope Z_scope.

(* C133: whatever a program does with indexed maps -- creating, inserting, looking up, copying, moving, assigning, wiping, clearing,
   destroying, any number of them in any order -- no object is used after it is deleted or deleted twice, every object held is held
   once, by one map, and each map shows exactly what was entered *)
Theorem C133_histories O okey ops A : ispecs O okey ops (fun _ => None) = Some A ->
  exists w, irun O okey ops (w0 O) = Ok w /\ sound O iv w /\ (Forall (no_clear O) ops -> no_leak O iv w) /\
    forall c, match A c with
      | None => cs O imap w c = None
      | Some (l, pr) => exists x, cs O imap w c = Some x /\ i_size x = Z.of_nat (length l) /\
          (forall i e, nth_error l i = Some e -> exists p, i_at (Z.of_nat i) x = Ok p /\ hp O imap w p = Some (snd e)) /\
          (forall k, match last_under O k l with Some o => exists p, fst (i_look k x) = Some p /\ hp O imap w p = Some o | None => fst (i_look k x) = None end) /\
          (forall k, i_exists k x = true <-> In k (map fst l) \/ In k pr)
      end.
Proof.
  intro E. destruct (Rel_start O) as [R0 L0]. destruct (run_ok O okey ops (w0 O) _ A R0 E) as (w & Ew & R & L). exists w. split; [assumption|]. split; [apply R|]. split; [intro F; now apply L|].
  intro c. destruct (A c) as [[l pr]|] eqn:EA; [|now apply (Rel_none O w A c R)]. destruct (Rel_some O w A c _ R EA) as (x & Ex & Hx). exists x. split; [assumption|]. exact (reads O _ x l pr Hx).
Qed.
Print Assumptions C133_histories.
(* the last map destroyed leaves nothing behind *)
Theorem C133_all_freed O okey ops A : ispecs O okey ops (fun _ => None) = Some A -> Forall (no_clear O) ops -> (forall c, A c = None) ->
  exists w, irun O okey ops (w0 O) = Ok w /\ forall p, hp O imap w p = None.
Proof.
  intros E F N. destruct (C133_histories O okey ops A E) as (w & Ew & _ & L & H). exists w. split; [assumption|]. intro p. destruct (hp O imap w p) eqn:Ep; [|reflexivity].
  destruct (L F p) as (c & x & Ex & _); [congruence|]. specialize (H c). rewrite N in H. congruence.
Qed.
Print Assumptions C133_all_freed.
Example C133_case : let ob (k v : Z) := (k, v) in
  let ops := [INew _ 0; IPush _ 0 (ob 5 50); IInsert _ 0 7 (ob 7 70); IPush _ 0 (ob 5 51); ILook _ 0 9; ICopy _ 1 0; IMove _ 2 0; IAssign _ 0 1; IMoveAssign _ 1 2; IWipe _ 0] in
  match ispecs (Z * Z) fst ops (fun _ => None), irun (Z * Z) fst ops (w0 _) with
  | Some A, Ok w => A 1 = Some ([(5, (5, 50)); (7, (7, 70)); (5, (5, 51))], [9]) /\ A 0 = Some ([], []) /\ Forall (no_clear _) ops /\ last_under _ 5 [(5, (5, 50)); (7, (7, 70)); (5, (5, 51))] = Some (5, 51)
  | _, _ => False
  end.
Proof. cbv zeta. vm_compute. repeat split; repeat constructor. Qed.
Example C133_freed_case : let ops := [INew _ 0; IPush _ 0 (5, 50); ICopy _ 1 0; IDestroy _ 0; IDestroy _ 1] in
  match ispecs (Z * Z) fst ops (fun _ => None) with Some A => Forall (no_clear _) ops /\ A 0 = None /\ A 1 = None | None => False end.
Proof. cbv zeta. vm_compute. repeat split; repeat constructor. Qed.

(* clear, unlike wipe, forgets the objects without deleting them *)
Theorem C133_clear_refuted O okey ops A c e l pr : ispecs O okey ops (fun _ => None) = Some A -> A c = Some (e :: l, pr) ->
  exists w p, irun O okey (ops ++ [IClear O c]) (w0 O) = Ok w /\ hp O imap w p = Some (snd e) /\ forall d, ~ owns O iv w d p.
Proof.
  intros E EA. destruct (Rel_start O) as [R0 _]. destruct (run_ok O okey ops (w0 O) _ A R0 E) as (w & Ew & R & _). destruct (the_some O w A c _ R EA) as (x & Et & Ex & (pl & E1 & F & _)).
  cbn [fst] in F. inversion F as [|[k p] ? pl' ? [_ Hp] _]; subst. cbn [snd map] in *. exists (set_c O c (Some iempty) w), p. split; [|split].
  - unfold irun in *. rewrite foldM_app, Ew. cbn [bind foldM istep]. rewrite Et. reflexivity.
  - exact Hp.
  - intros d (y & Ey & Hy). cbn [set_c Model_Keyed.cs] in Ey. unfold put in Ey. destruct (d =? c) eqn:K; [injection Ey as <-; destruct Hy|]. destruct R as [[(I1 & _ & _) _] _].
    assert (d = c); [|lia]. apply (I1 d c p); [now exists y|]. exists x. split; [assumption|]. rewrite E1. now left.
Qed.
Print Assumptions C133_clear_refuted.
Example C133_clear_case : match ispecs (Z * Z) fst [INew _ 0; IPush _ 0 (5, 50)] (fun _ => None) with Some A => A 0 = Some ([(5, (5, 50))], []) | None => False end.
Proof. reflexivity. Qed.
(* assigning a map to itself empties it *)
Theorem C133_self_assign_refuted O okey ops A c v : ispecs O okey ops (fun _ => None) = Some A -> A c = Some v ->
  exists w x, irun O okey (ops ++ [IAssign O c c]) (w0 O) = Ok w /\ cs O imap w c = Some x /\ i_size x = 0 /\ forall k, i_exists k x = false.
Proof.
  intros E EA. assert (E' : exists B, ispecs O okey (ops ++ [IAssign O c c]) (fun _ => None) = Some B /\ B c = Some ([], [])).
  { revert E. generalize (fun _ : Z => @None (iview O)). induction ops as [|op ops IH]; intros A0 E; cbn [ispecs app] in *.
    - injection E as ->. cbn [ispec]. rewrite EA. destruct v. rewrite Z.eqb_refl. eexists. split; [reflexivity|]. unfold supd. now rewrite Z.eqb_refl.
    - destruct (ispec O okey op A0); [now apply IH|discriminate]. }
  destruct E' as (B & EB & Bc). destruct (C133_histories O okey _ B EB) as (w & Ew & _ & _ & H). specialize (H c). rewrite Bc in H. destruct H as (x & Ex & Hs & _ & _ & He). exists w, x. split; [assumption|]. split; [assumption|]. split; [assumption|].
  intro k. destruct (i_exists k x) eqn:K; [|reflexivity]. apply He in K as [[]|[]].
Qed.
Print Assumptions C133_self_assign_refuted.
Example C133_self_assign_case : match ispecs (Z * Z) fst [INew _ 0; IPush _ 0 (5, 50); ILook _ 0 3] (fun _ => None) with Some A => A 0 = Some ([(5, (5, 50))], [3]) | None => False end.
Proof. reflexivity. Qed.
(* an object entered under a key other than its own is not found under that key in a copy; a lookup alone makes a key exist *)
Theorem C133_copy_rekeys_refuted : exists w x y, irun (Z * Z) fst [INew _ 0; IInsert _ 0 1 (5, 50); ICopy _ 1 0] (w0 _) = Ok w /\
  cs _ _ w 0 = Some x /\ cs _ _ w 1 = Some y /\ i_exists 1 x = true /\ i_exists 1 y = false /\ i_exists 5 y = true.
Proof. eexists. eexists. eexists. split; [reflexivity|]. repeat split; reflexivity. Qed.
Print Assumptions C133_copy_rekeys_refuted.
Theorem C133_lookup_refuted x k : i_exists k (snd (i_look k x)) = true.
Proof.
  unfold i_look. destruct (mfind k (im x)) eqn:E; cbn [snd]; unfold i_exists; [now rewrite E|]. cbn [im].
  assert (H : forall m : list (Z * option Z), mfind k (mput k None m) = Some None). { induction m as [|[a u] m IH]; cbn [mput mfind]; [now rewrite Z.eqb_refl|]. destruct (k <? a); cbn [mfind]; [now rewrite Z.eqb_refl|]. destruct (k =? a) eqn:K; cbn [mfind]; [now rewrite Z.eqb_refl|]. now rewrite K. }
  now rewrite H.
Qed.
Print Assumptions C133_lookup_refuted.
(* the move assignment of indexed_map has no return statement: executing it is undefined *)
Theorem C133_move_assign_refuted O c d (w : world O imap) : imA_move_assign O c d w = UB.
Proof. unfold imA_move_assign, the. destruct (cs O imap w c); [|reflexivity]. cbn [bind]. destruct (cs O imap w d); reflexivity. Qed.
Print Assumptions C133_move_assign_refuted.

(* C134: the same for associative containers, of which a key holds at most one object: an insert under a taken key and a const lookup of
   an absent one stop the program, a non-const lookup of an absent key enters a default object *)
Theorem C134_histories O odef ops :
  match aspecs O odef ops (fun _ => None) with
  | Done _ A => exists w, arun O odef ops (w0 O) = Ok w /\ sound O (map snd) w /\ no_leak O (map snd) w /\
      forall c, match A c with
        | None => cs O amap w c = None
        | Some f => exists x L, cs O amap w c = Some x /\ a_values O c w = Ok L /\ a_size x = Z.of_nat (length L) /\ StronglySorted Z.lt (map fst L) /\
            (forall k o, In (k, o) L <-> f k = Some o) /\ a_first O c w = match L with [] => UB | e :: _ => Ok (snd e) end /\
            forall k, a_exists k x = match f k with Some _ => true | None => false end /\ a_get O c k w = match f k with Some o => Ok o | None => Throw end
        end
  | Stops _ => arun O odef ops (w0 O) = Throw
  | Misuse _ => True
  end.
Proof.
  destruct (ARel_start O) as [R0 L0]. pose proof (arun_ok O odef ops (w0 O) _ R0) as H. destruct (aspecs O odef ops (fun _ => None)) as [A| |]; [|assumption|exact I].
  destruct H as (w & Ew & R & L). exists w. split; [assumption|]. split; [apply R|]. split; [exact (L L0)|]. intro c. destruct (A c) as [f|] eqn:EA; [|now apply (A_none O w A c R)].
  destruct (values_ok O w A c f R EA) as (x & Ls & Ex & H1 & H2 & H3 & H4 & H5). exists x, Ls. repeat split; try assumption; try apply H4.
  - destruct (A_some O w A c f R EA) as (x' & _ & Ex' & Hx). assert (x' = x) by congruence. subst. exact (a_exists_iff O _ x f k Hx).
  - exact (get_ok O w A c f k R EA).
Qed.
Print Assumptions C134_histories.
Example C134_case : let ops := [ANew Z 0; AInsert _ 0 5 50; ASet _ 0 3 30; AAt _ 0 4; ACopy _ 1 0; ASet _ 1 5 99; AMove _ 2 0; AInsert _ 0 5 7; ADestroy _ 2] in
  match aspecs Z 0 ops (fun _ => None) with
  | Done _ A => match A 0, A 1, A 2 with Some f, Some g, None => f 5 = Some 7 /\ f 3 = None /\ g 5 = Some 99 /\ g 3 = Some 30 /\ g 4 = Some 0 | _, _, _ => False end
  | _ => False
  end /\
  match arun Z 0 ops (w0 _) with Ok w => a_values Z 1 w = Ok [(3, 30); (4, 0); (5, 99)] | _ => False end /\
  aspecs Z 0 [ANew Z 0; AInsert _ 0 5 50; AInsert _ 0 5 51] (fun _ => None) = Stops _.
Proof. cbv zeta. split; [vm_compute; repeat split|]. split; vm_compute; reflexivity. Qed.
Theorem C134_all_freed O odef ops A : aspecs O odef ops (fun _ => None) = Done _ A -> (forall c, A c = None) ->
  exists w, arun O odef ops (w0 O) = Ok w /\ forall p, hp O amap w p = None.
Proof.
  intros E N. pose proof (C134_histories O odef ops) as H. rewrite E in H. destruct H as (w & Ew & _ & L & H). exists w. split; [assumption|]. intro p. destruct (hp O amap w p) eqn:Ep; [|reflexivity].
  destruct (L p) as (c & x & Ex & _); [change (hp O amap w p <> None); congruence|]. specialize (H c). rewrite N in H. change (cs O amap w c = Some x) in Ex; congruence.
Qed.
Print Assumptions C134_all_freed.
Example C134_freed_case : match aspecs Z 0 [ANew Z 0; AInsert _ 0 5 50; AMove _ 1 0; ADestroy _ 0; ADestroy _ 1] (fun _ => None) with Done _ A => A 0 = None /\ A 1 = None | _ => False end.
Proof. vm_compute. repeat split. Qed.
