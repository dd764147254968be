(* Proofs_JSON2.v -- dictionaries of the JSON-like store: lookup, printing and parsing. *)
From Coq Require Import ZArith List Bool Ascii Lia Sorting.Sorted.
Import ListNotations.
From Verif Require Import Base Model_JSON Spec_JSON Proofs_JSON.
Open Scope Z_scope.

(* ---- the order of keys *)
Lemma scmp_eq a : forall b, scmp a b = Eq <-> a = b.
Proof.
  induction a as [|c a IH]; intros [|d b]; cbn; try (split; congruence).
  destruct (Nat.compare_spec (nat_of_ascii c) (nat_of_ascii d)) as [E|E|E].
  - rewrite IH. assert (c = d) by (rewrite <- (ascii_nat_embedding c), E; apply ascii_nat_embedding). subst. split; congruence.
  - split; [discriminate|]. intros [= -> ->]. lia.
  - split; [discriminate|]. intros [= -> ->]. lia.
Qed.
Lemma scmp_anti a : forall b, scmp b a = CompOpp (scmp a b).
Proof.
  induction a as [|c a IH]; intros [|d b]; cbn; try reflexivity.
  rewrite Nat.compare_antisym. destruct (Nat.compare (nat_of_ascii c) (nat_of_ascii d)); cbn; auto.
Qed.
Lemma scmp_trans a : forall b c, scmp a b = Lt -> scmp b c = Lt -> scmp a c = Lt.
Proof.
  induction a as [|x a IH]; intros [|y b] [|z c]; cbn; try congruence.
  destruct (Nat.compare_spec (nat_of_ascii x) (nat_of_ascii y)) as [E1|E1|E1]; try discriminate;
  destruct (Nat.compare_spec (nat_of_ascii y) (nat_of_ascii z)) as [E2|E2|E2]; try discriminate;
  destruct (Nat.compare_spec (nat_of_ascii x) (nat_of_ascii z)) as [E3|E3|E3]; try lia; try congruence; eauto.
Qed.
Definition before (p q : text * json) : Prop := scmp (fst p) (fst q) = Lt.
Notation sorted := (StronglySorted before).

Lemma dset_in k v d p : In p (dset k v d) -> p = (k, v) \/ In p d.
Proof.
  induction d as [|[k' v'] d IH]; cbn; [intros [<-|[]]; auto|]. destruct (scmp k k'); cbn; intros [<-|I]; auto. destruct (IH I); auto.
Qed.
Lemma dset_sorted k v d : sorted d -> sorted (dset k v d).
Proof.
  induction 1 as [|[k' v'] d Hd IH HF]; cbn; [repeat constructor|]. rewrite Forall_forall in HF. unfold before in *. cbn [fst] in *.
  destruct (scmp k k') eqn:E.
  - apply scmp_eq in E. subst k'. constructor; [exact Hd|]. apply Forall_forall. exact HF.
  - constructor; [constructor; [exact Hd|apply Forall_forall; exact HF]|]. apply Forall_forall. intros p [<-|I]; cbn; [exact E|].
    eapply scmp_trans; [exact E|]. apply (HF _ I).
  - constructor; [exact IH|]. apply Forall_forall. intros p I. destruct (dset_in _ _ _ _ I) as [->|I']; [|apply (HF _ I')].
    unfold before. cbn. rewrite scmp_anti, E. reflexivity.
Qed.
Lemma dset_last k v d : (forall p, In p d -> scmp (fst p) k = Lt) -> dset k v d = d ++ [(k, v)].
Proof.
  induction d as [|[k' v'] d IH]; cbn; intro H; [reflexivity|]. rewrite scmp_anti.
  pose proof (H (k', v') (or_introl eq_refl)) as K. cbn in K. rewrite K. cbn. rewrite IH by auto. reflexivity.
Qed.
Lemma dset_length k v d : (length (dset k v d) <= S (length d))%nat.
Proof. induction d as [|[k' v'] d IH]; cbn; [lia|]. destruct (scmp k k'); cbn; lia. Qed.
Lemma dfind_small k d : (forall p, In p d -> scmp k (fst p) = Lt) -> dfind k d = None.
Proof. induction d as [|[k' v'] d IH]; cbn; intro H; [reflexivity|]. pose proof (H (k', v') (or_introl eq_refl)) as K. cbn in K. rewrite K. auto. Qed.
Lemma dfind_dset k v k0 d : dfind k0 (dset k v d) = if list_eq_dec ascii_dec k0 k then Some v else dfind k0 d.
Proof.
  induction d as [|[k' v'] d IH]; cbn.
  - destruct (list_eq_dec ascii_dec k0 k) as [->|N]; [replace (scmp k k) with Eq by (symmetry; apply scmp_eq; reflexivity); reflexivity|].
    destruct (scmp k0 k) eqn:E; [apply scmp_eq in E; congruence|reflexivity|reflexivity].
  - destruct (scmp k k') eqn:E; cbn.
    + apply scmp_eq in E. subst k'. destruct (list_eq_dec ascii_dec k0 k) as [->|N].
      * replace (scmp k k) with Eq by (symmetry; apply scmp_eq; reflexivity). reflexivity.
      * destruct (scmp k0 k) eqn:E; [apply scmp_eq in E; congruence|reflexivity|reflexivity].
    + destruct (list_eq_dec ascii_dec k0 k) as [->|N].
      * replace (scmp k k) with Eq by (symmetry; apply scmp_eq; reflexivity). reflexivity.
      * destruct (scmp k0 k) eqn:E0; [apply scmp_eq in E0; congruence|reflexivity|reflexivity].
    + rewrite IH. destruct (list_eq_dec ascii_dec k0 k) as [->|N]; [|reflexivity]. rewrite E. reflexivity.
Qed.
Lemma dfind_in k d j : dfind k d = Some j -> In (k, j) d.
Proof.
  induction d as [|[k' v'] d IH]; cbn; [discriminate|]. destruct (scmp k k') eqn:E; auto. apply scmp_eq in E. intros [= ->]. left. congruence.
Qed.

(* ---- objects filled by assignments *)
Definition leaf (t : text) : json := JSON t [] true.
Lemma filled_find l k : dfind k (jdict (filled l)) = option_map (fun v => leaf (text_of v)) (latest k l).
Proof.
  induction l as [|[k' v] l IH]; cbn; [reflexivity|]. rewrite dfind_dset. destruct (list_eq_dec ascii_dec k k') as [->|N]; [|exact IH].
  cbn. rewrite IH. destruct (latest k' l); reflexivity.
Qed.
Lemma filled_sorted l : sorted (jdict (filled l)).
Proof. induction l as [|[k v] l IH]; cbn; [constructor|]. apply dset_sorted, IH. Qed.
Lemma filled_top l : filled l = JSON [] (jdict (filled l)) true.
Proof. induction l as [|[k v] l IH]; cbn; [reflexivity|]. rewrite IH. reflexivity. Qed.
Lemma filled_entry l p : In p (jdict (filled l)) -> exists v, In (fst p, v) l /\ snd p = leaf (text_of v).
Proof.
  revert p. induction l as [|[k v] l IH]; intros p I; cbn in I; [destruct I|]. apply dset_in in I. destruct I as [->|I].
  - exists v. split; [left; reflexivity|]. cbn. rewrite filled_find. destruct (latest k l); reflexivity.
  - destruct (IH p I) as (w & A & B). exists w. split; [right; exact A|exact B].
Qed.
Lemma dset_nonempty k v d : dset k v d <> [].
Proof. destruct d as [|[k' v'] d]; cbn; [discriminate|]. destruct (scmp k k'); discriminate. Qed.
Lemma filled_nonempty l : l <> [] -> jdict (filled l) <> [].
Proof. destruct l as [|[k v] l]; [congruence|]. intros _. cbn. apply dset_nonempty. Qed.
Lemma sorted_nodup d : sorted d -> NoDup (map fst d).
Proof.
  induction 1 as [|[k v] d Hd IH HF]; cbn; constructor; [|exact IH]. intro I. apply in_map_iff in I. destruct I as (p & E & I).
  rewrite Forall_forall in HF. pose proof (HF p I) as K. unfold before in K. cbn in K. rewrite E in K.
  replace (scmp k k) with Eq in K by (symmetry; apply scmp_eq; reflexivity). discriminate.
Qed.
Lemma filled_length l : (length (jdict (filled l)) <= length (nodup (list_eq_dec ascii_dec) (map fst l)))%nat.
Proof.
  rewrite <- (map_length fst). apply NoDup_incl_length; [apply sorted_nodup, filled_sorted|].
  intros k I. apply nodup_In. apply in_map_iff in I. destruct I as (p & <- & I). destruct (filled_entry l p I) as (v & A & _).
  apply in_map_iff. exists (fst p, v). auto.
Qed.

(* ---- parsing what was printed *)
Definition dterm (t : text) : Prop :=
  (forall b, b = [] \/ (exists b', b = ","%char :: b') -> ends t b) /\ (exists c t', t = c :: t' /\ c <> "{"%char) /\
  (forall c, In c t -> ws c = false /\ c <> "}"%char).
Lemma dterm_value v : good_value v -> dterm (text_of v).
Proof.
  assert (SB : forall b, b = [] \/ (exists b', b = ","%char :: b') -> sep b) by (intros b [B|B]; [left|right; right]; exact B).
  assert (NUM : forall z c, In c (to_string z) -> ws c = false /\ c <> "}"%char).
  { intros z c I. split; [revert c I; apply numeral_char; reflexivity|].
    pose proof (numeral_char (Ascii.eqb "}"%char) eq_refl z c I) as K. apply Ascii.eqb_neq in K. congruence. }
  assert (STR : forall s, (forall c, In c s -> ws c = false /\ c <> quo /\ c <> "}"%char) -> dterm (set_str s)).
  { intros s H. split; [|split].
    - intros b B. apply ends_quoted; [|exact B]. intros c I. apply H, I.
    - exists quo, (s ++ [quo]). split; [reflexivity|discriminate].
    - intros c [<-|I]; [split; [reflexivity|discriminate]|]. apply in_app_iff in I.
      destruct I as [I|[<-|[]]]; [split; apply H; exact I|split; [reflexivity|discriminate]]. }
  destruct v as [s|x|x|x]; cbn; intro H.
  - apply STR, H.
  - apply STR. intros c I. destruct (NUM x c I) as [A B]. split; [exact A|split; [|exact B]].
    pose proof (numeral_char (Ascii.eqb quo) eq_refl x c I) as K. apply Ascii.eqb_neq in K. congruence.
  - split; [|split].
    + intros b B. apply ends_bracket; [apply vec_content|auto].
    + unfold set_vec, bracketed. do 2 eexists. split; [reflexivity|discriminate].
    + apply (vec_char (fun c => ws c = false /\ c <> "}"%char)); try (split; [reflexivity|discriminate]). exact NUM.
  - split; [|split].
    + intros b B. apply ends_bracket; [apply vec_vec_content|auto].
    + unfold set_vec_vec, bracketed. do 2 eexists. split; [reflexivity|discriminate].
    + apply (vec_vec_char (fun c => ws c = false /\ c <> "}"%char)); try (split; [reflexivity|discriminate]). exact NUM.
Qed.
Lemma parse_leaf f t : dterm t -> parse_at (S f) t = Ok (leaf t).
Proof.
  intros (_ & (c & t' & -> & Hc) & H). cbn [parse_at].
  assert (W : ws c = false) by (apply H; left; reflexivity).
  assert (E : fnof ws (c :: t') 0 = Some O) by (unfold fnof, find_from; cbn [skipn find_idx]; rewrite W; reflexivity).
  rewrite E. cbn [nth]. apply Ascii.eqb_neq in Hc. rewrite Hc.
  replace (fof ws (c :: t') 0) with (@None nat); [reflexivity|].
  symmetry. apply (find_none ws [] (c :: t')). intros d I. apply H, I.
Qed.
Definition entry (p : text * json) : text := fst p ++ "="%char :: print (snd p).
Definition dentry (p : text * json) : Prop := good_key (fst p) /\ exists t, snd p = leaf t /\ dterm t.
Lemma entry_head p : dentry p -> exists c w, entry p = c :: w /\ skip_dict c = false /\ ws c = false.
Proof.
  destruct p as [k j]. intros ((HK & H1) & _). unfold entry. cbn [fst] in *. destruct k as [|c k]; cbn [app].
  - do 2 eexists. split; [reflexivity|split; reflexivity].
  - do 2 eexists. split; [reflexivity|]. destruct (HK c (or_introl eq_refl)) as [A B]. destruct H1 as [C D].
    unfold key_end, among in A. cbn [existsb] in A. apply orb_false_elim in A. destruct A as [A1 A].
    apply orb_false_elim in A. destruct A as [A2 A]. apply orb_false_elim in A. destruct A as [A3 A]. apply orb_false_elim in A. destruct A as [A4 _].
    apply Ascii.eqb_neq in B, C, D. unfold skip_dict, ws, among. cbn [existsb]. rewrite A1, A3, A4, B, C, D. split; reflexivity.
Qed.
Lemma dict_loop_ok parse : (forall t, dterm t -> parse t = Ok (leaf t)) ->
  forall es, es <> [] -> Forall dentry es -> sorted es ->
  forall a d fuel, (length es <= fuel)%nat -> (length d + length es <= 1000)%nat -> (forall p q, In p d -> In q es -> before p q) ->
  dict_loop parse fuel (a ++ join (map entry es)) (Some (length a)) d = Ok (d ++ es, true).
Proof.
  intros HP. induction es as [|[k j] es IH]; intros N HD HS a d fuel F L HB; [congruence|].
  inversion HD as [|? ? Hp HD']; subst. inversion HS as [|? ? HS' HF]; subst.
  destruct Hp as ((HK & HK1) & (t & Ej & Ht)). cbn [fst snd] in *. subst j.
  assert (J : exists b, join (map entry ((k, leaf t) :: es)) = k ++ "="%char :: t ++ b /\
     ((es = [] /\ b = []) \/ (es <> [] /\ b = ","%char :: join (map entry es)))).
  { destruct es as [|e es]; cbn [map join].
    - exists []. rewrite app_nil_r. split; [reflexivity|left; auto].
    - exists (","%char :: join (map entry (e :: es))). unfold entry at 1. cbn [fst snd print leaf]. rewrite <- app_assoc. split; [reflexivity|].
      right. split; [discriminate|reflexivity]. }
  destruct J as (b & EJ & Hb). rewrite EJ. clear EJ.
  set (str := a ++ k ++ "="%char :: t ++ b).
  destruct fuel as [|f]; [cbn in F; lia|]. cbn [length] in *.
  assert (LS : length str = (length a + length k + 1 + length t + length b)%nat)
    by (unfold str; rewrite !app_length; cbn; rewrite app_length; lia).
  cbn [dict_loop].
  replace (_ <? length str)%nat with true by (symmetry; apply Nat.ltb_lt; lia).
  replace (length d <? 1000)%nat with true by (symmetry; apply Nat.ltb_lt; lia). cbn [andb].
  assert (E1 : fof key_end str (length a) = Some (length a + length k)%nat)
    by (unfold fof, str; apply find_hit; [intros c I; apply HK, I|reflexivity]).
  rewrite E1.
  assert (S2 : str = (a ++ k) ++ "="%char :: t ++ b) by (unfold str; rewrite <- app_assoc; reflexivity).
  assert (S3 : str = ((a ++ k) ++ ["="%char]) ++ t ++ b) by (rewrite S2, <- !app_assoc; reflexivity).
  assert (E2 : fof (Ascii.eqb "="%char) str (length a + length k) = Some (length a + length k)%nat).
  { unfold fof. rewrite S2, <- app_length. change ((a ++ k) ++ "="%char :: t ++ b) with ((a ++ k) ++ [] ++ "="%char :: t ++ b).
    rewrite find_hit; [cbn; f_equal; lia|intros ? []|reflexivity]. }
  rewrite E2.
  destruct Ht as (He & (c & t' & Et & Hc) & Hch).
  assert (LA : length ((a ++ k) ++ ["="%char]) = S (length a + length k)) by (rewrite !app_length; cbn; lia).
  assert (E3 : fnof ws str (S (length a + length k)) = Some (S (length a + length k))).
  { unfold fnof. rewrite <- LA, S3, Et. cbn [app].
    change (find_from _ (_ ++ c :: t' ++ b) _) with (find_from (fun c => negb (ws c)) (((a ++ k) ++ ["="%char]) ++ [] ++ c :: t' ++ b) (length ((a ++ k) ++ ["="%char]))).
    rewrite find_hit; [cbn; f_equal; lia|intros ? []|]. destruct (Hch c) as [W _]; [rewrite Et; left; reflexivity|]. rewrite W. reflexivity. }
  rewrite E3.
  assert (EK : sub str (length a) (Some (length a + length k)%nat) = k) by (unfold str; apply sub_mid).
  assert (HT : dterm t) by (split; [exact He|split; [exists c, t'; auto|exact Hch]]).
  assert (ED : dset k (leaf t) d = d ++ [(k, leaf t)]).
  { apply dset_last. intros p I. apply (HB p (k, leaf t)); [exact I|left; reflexivity]. }
  destruct Hb as [[-> ->]|[Ne ->]].
  - assert (E4 : end_of_term str (S (length a + length k)) = Ok None) by (rewrite <- LA, S3; apply (He []); left; reflexivity).
    rewrite E4. cbn [bind].
    assert (E5 : sub str (S (length a + length k)) None = t) by (rewrite <- LA, S3, app_nil_r; apply sub_end).
    rewrite E5, HP by exact HT. cbn [bind]. cbv zeta. rewrite EK, ED. reflexivity.
  - set (b := ","%char :: join (map entry es)) in *.
    assert (E4 : end_of_term str (S (length a + length k)) = Ok (Some (S (length a + length k) + length t)%nat)).
    { rewrite <- LA, S3. rewrite (He b) by (right; eexists; reflexivity). reflexivity. }
    rewrite E4. cbn [bind].
    assert (E5 : sub str (S (length a + length k)) (Some (S (length a + length k) + length t)%nat) = t) by (rewrite <- LA, S3; apply sub_mid).
    rewrite E5, HP by exact HT. cbn [bind]. cbv zeta. rewrite EK, ED.
    set (a' := (((a ++ k) ++ ["="%char]) ++ t) ++ [","%char]).
    assert (S4 : str = a' ++ join (map entry es)) by (rewrite S3; unfold a', b; rewrite <- !app_assoc; reflexivity).
    assert (E6 : fnof skip_dict str (S (length a + length k) + length t) = Some (length a')).
    { destruct es as [|e es]; [congruence|]. inversion HD' as [|? ? He' _]; subst.
      destruct (entry_head e He') as (c2 & w & Ew & Hs & _).
      assert (Ew2 : exists w', join (map entry (e :: es)) = c2 :: w')
        by (cbn [map]; destruct (map entry es); cbn [join]; rewrite Ew; cbn; eauto).
      destruct Ew2 as (w' & Ew2).
      replace (S (length a + length k) + length (c :: t'))%nat with (length (((a ++ k) ++ ["="%char]) ++ c :: t')) by (rewrite app_length, LA; reflexivity).
      unfold fnof. rewrite S4. unfold a'. rewrite Ew2, <- (app_assoc _ [","%char]).
      rewrite find_hit; [rewrite (app_length _ [","%char]); reflexivity|intros ? [<-|[]]; reflexivity|rewrite Hs; reflexivity]. }
    rewrite E6, S4.
    rewrite (IH Ne HD' HS' a' (d ++ [(k, leaf t)]) f).
    + rewrite <- app_assoc. reflexivity.
    + lia.
    + rewrite app_length. cbn. lia.
    + intros p q I J. apply in_app_iff in I. destruct I as [I|[<-|[]]]; [apply HB; [exact I|right; exact J]|].
      rewrite Forall_forall in HF. apply HF, J.
Qed.
Lemma parse_print d : d <> [] -> Forall dentry d -> sorted d -> (length d <= 1000)%nat ->
  parse (print (JSON [] d true)) = Ok (JSON [] d true).
Proof.
  intros N HD HS L.
  assert (EP : print (JSON [] d true) = "{"%char :: join (map entry d) ++ ["}"%char]).
  { destruct d as [|p d]; [congruence|]. reflexivity. }
  rewrite EP. unfold parse. set (body := join (map entry d)). cbn [length].
  assert (NB : forall c, In c body -> c <> "}"%char).
  { apply join_char; [discriminate|]. apply Forall_forall. intros t I. apply in_map_iff in I. destruct I as (p & <- & I).
    rewrite Forall_forall in HD. destruct (HD p I) as ((HK & _) & t' & Et & (_ & _ & Ht)). unfold entry. intros c J.
    apply in_app_iff in J. destruct J as [J|[<-|J]]; [apply HK, J|discriminate|]. rewrite Et in J. apply Ht, J. }
  remember (S (length (body ++ ["}"%char]))) as dp eqn:Edp. cbn [parse_at].
  change (fnof ws ("{"%char :: body ++ ["}"%char]) 0) with (Some O). cbn [nth]. rewrite Ascii.eqb_refl.
  assert (E1 : fof (Ascii.eqb "}"%char) ("{"%char :: body ++ ["}"%char]) 0 = Some (S (length body))).
  { unfold fof. change ("{"%char :: body ++ ["}"%char]) with ([] ++ ("{"%char :: body) ++ "}"%char :: []).
    change O with (length (@nil ascii)) at 1. rewrite find_hit; [reflexivity| |reflexivity].
    intros c [<-|I]; [reflexivity|]. apply Ascii.eqb_neq. intro E. apply (NB c I). auto. }
  rewrite E1.
  assert (E2 : sub ("{"%char :: body ++ ["}"%char]) 1 (Some (S (length body))) = body)
    by apply (sub_mid ["{"%char] body ["}"%char]).
  rewrite E2. cbv zeta.
  assert (E3 : fnof ws body 0 = Some O).
  { destruct d as [|p d]; [congruence|]. inversion HD as [|? ? Hp _]; subst. destruct (entry_head p Hp) as (c & w & Ew & _ & Hw).
    assert (EB : exists w', body = c :: w') by (unfold body; cbn [map]; destruct (map entry d); cbn [join]; rewrite Ew; cbn; eauto).
    destruct EB as (w' & ->). unfold fnof, find_from. cbn [skipn find_idx]. rewrite Hw. reflexivity. }
  rewrite E3.
  assert (E4 : dict_loop (parse_at dp) (S (length body)) ([] ++ body) (Some (length (@nil ascii))) [] = Ok ([] ++ d, true)).
  { apply dict_loop_ok; auto.
    - intros t Ht. rewrite Edp. apply parse_leaf, Ht.
    - assert (K : (length (map entry d) <= length body)%nat).
      { apply join_long. apply Forall_forall. intros t I. apply in_map_iff in I. destruct I as (p & <- & _). unfold entry. destruct (fst p); discriminate. }
      rewrite map_length in K. lia.
    - intros p q []. }
  cbn [app length] in E4. rewrite E4. reflexivity.
Qed.

(* ---- what no text can be parsed into *)
Lemma find_some p s n r : find_from p s n = Some r -> (n <= r < length s)%nat /\ p (nth r s " "%char) = true /\
  forall i, (n <= i < r)%nat -> p (nth i s " "%char) = false.
Proof.
  unfold find_from. assert (G : forall l r, find_idx p l = Some r -> (r < length l)%nat /\ p (nth r l " "%char) = true /\ forall i, (i < r)%nat -> p (nth i l " "%char) = false).
  { induction l as [|c l IH]; intros r0 H; cbn in H; [discriminate|]. destruct (p c) eqn:E.
    - injection H as <-. cbn. repeat split; [lia|exact E|]. lia.
    - destruct (find_idx p l) as [r1|]; [|discriminate]. injection H as <-. destruct (IH r1 eq_refl) as (A & B & C). cbn.
      repeat split; [lia|exact B|]. intros [|i] Hi; [exact E|]. apply C. lia. }
  destruct (find_idx p (skipn n s)) as [r0|] eqn:E; [|discriminate]. cbn. intros [= <-]. destruct (G _ _ E) as (A & B & C).
  rewrite skipn_length in A.
  assert (NT : forall i, nth i (skipn n s) " "%char = nth (n + i) s " "%char).
  { intro i. rewrite <- (firstn_skipn n s) at 2. rewrite app_nth2; rewrite firstn_length; [f_equal; lia|lia]. }
  split; [lia|]. split; [rewrite <- NT; exact B|]. intros i Hi. replace i with (n + (i - n))%nat by lia. rewrite <- NT. apply C. lia.
Qed.
Lemma find_no p s n : find_from p s n = None -> forall c, In c (skipn n s) -> p c = false.
Proof.
  unfold find_from. destruct (find_idx p (skipn n s)) eqn:E; [discriminate|]. intros _. revert E. induction (skipn n s) as [|d l IH]; cbn; [tauto|].
  destruct (p d) eqn:D; [discriminate|]. destruct (find_idx p l); [discriminate|]. intros _ c [<-|I]; auto.
Qed.
Lemma in_skipn (c : ascii) n s : In c (skipn n s) -> In c s.
Proof. intro I. rewrite <- (firstn_skipn n s). apply in_app_iff. auto. Qed.
Lemma in_sub c s b e : In c (sub s b e) -> In c s.
Proof.
  unfold sub. destruct e as [e|]; [|apply in_skipn]. destruct (e <? b)%nat; [apply in_skipn|]. intro I. apply (in_skipn c b).
  rewrite <- (firstn_skipn (e - b) (skipn b s)). apply in_app_iff. auto.
Qed.
Lemma sub_before p s b e : (b <= e < length s)%nat -> (forall i, (b <= i < e)%nat -> p (nth i s " "%char) = false) -> forall c, In c (sub s b (Some e)) -> p c = false.
Proof.
  intros L H c I. unfold sub in I. replace (e <? b)%nat with false in I by (symmetry; apply Nat.ltb_ge; lia).
  apply (In_nth _ _ " "%char) in I. destruct I as (i & Hi & <-). rewrite firstn_length, skipn_length in Hi.
  rewrite <- (firstn_skipn (e - b) (skipn b s)) in *.
  assert (E : nth i (firstn (e - b) (firstn (e - b) (skipn b s) ++ skipn (e - b) (skipn b s))) " "%char = nth (b + i) s " "%char).
  { rewrite (firstn_skipn (e - b) (skipn b s)).
    transitivity (nth i (skipn b s) " "%char).
    - rewrite <- (firstn_skipn (e - b) (skipn b s)) at 2. rewrite app_nth1; [reflexivity|]. rewrite firstn_length, skipn_length. lia.
    - rewrite <- (firstn_skipn b s) at 2. rewrite app_nth2; rewrite firstn_length; [f_equal; lia|lia]. }
  rewrite E. apply H. lia.
Qed.
Definition plain_key (k : text) : Prop := forall c, In c k -> key_end c = false /\ c <> "}"%char.
Definition plain_entry (j : json) : Prop := jdict j = [] /\ forall c, In c (jval j) -> ws c = false /\ c <> "}"%char.
Lemma parse_plain f t j : (forall c, In c t -> c <> "}"%char) -> match t with c :: _ => ws c = false | [] => True end ->
  parse_at f t = Ok j -> plain_entry j.
Proof.
  destruct f as [|f]; [discriminate|]. cbn [parse_at]. intros NB H0.
  destruct (fnof ws t 0) as [s|] eqn:E; [|intros [= <-]; split; [reflexivity|intros ? []]].
  destruct (Ascii.eqb (nth s t "0"%char) "{"%char).
  - destruct (fof (Ascii.eqb "}"%char) t s) as [e|] eqn:E2; [|intros [= <-]; split; [reflexivity|intros ? []]].
    apply find_some in E2. destruct E2 as (L & E2 & _). apply Ascii.eqb_eq in E2. exfalso. apply (NB (nth e t " "%char)); [apply nth_In; lia|auto].
  - intros [= <-]. split; [reflexivity|]. cbn [jval].
    destruct t as [|c t]; [discriminate|]. unfold fnof, find_from in E. cbn [skipn find_idx] in E. rewrite H0 in E. cbn in E. injection E as <-.
    intros d I. split; [|apply NB; eapply in_sub; exact I].
    destruct (fof ws (c :: t) 0) as [e|] eqn:E2.
    + apply find_some in E2. destruct E2 as (L & _ & B). exact (sub_before ws _ _ _ L B d I).
    + apply (find_no _ _ _ E2). exact I.
Qed.
Lemma dict_loop_plain parse str : (forall c, In c str -> c <> "}"%char) ->
  (forall t j, (forall c, In c t -> c <> "}"%char) -> match t with c :: _ => ws c = false | [] => True end -> parse t = Ok j -> plain_entry j) ->
  forall fuel s d d' b, (length d <= 1000)%nat -> Forall (fun p => plain_key (fst p) /\ plain_entry (snd p)) d ->
  dict_loop parse fuel str s d = Ok (d', b) -> (length d' <= 1000)%nat /\ Forall (fun p => plain_key (fst p) /\ plain_entry (snd p)) d'.
Proof.
  intros NB HP. induction fuel as [|f IH]; intros s d d' b L HD; [discriminate|]. cbn [dict_loop].
  destruct s as [s|]; [|intros [= <- _]; auto].
  destruct (andb _ _) eqn:EA; [|intros [= <- _]; auto]. apply andb_prop in EA. destruct EA as [_ EL]. apply Nat.ltb_lt in EL.
  destruct (fof key_end str s) as [e|] eqn:E1; [|intros [= <- _]; auto].
  destruct (fof (Ascii.eqb "="%char) str e) as [q|]; [|intros [= <- _]; auto].
  destruct (fnof ws str (S q)) as [f0|] eqn:E3; [|intros [= <- _]; auto].
  destruct (end_of_term str f0) as [g| |]; try discriminate. cbn [bind].
  destruct (parse (sub str f0 g)) as [j| |] eqn:EJ; try discriminate. cbn [bind]. cbv zeta.
  assert (HJ : plain_entry j).
  { revert EJ. apply HP; [intros c I; apply NB; eapply in_sub; exact I|].
    apply find_some in E3. destruct E3 as (L3 & B3 & _). apply negb_true_iff in B3.
    destruct (sub str f0 g) as [|c w] eqn:ES; [exact Logic.I|].
    assert (EC : c = nth f0 str " "%char); [|rewrite EC; exact B3].
    assert (SK : exists w', skipn f0 str = c :: w').
    { unfold sub in ES. destruct g as [g|]; [|eauto]. destruct (g <? f0)%nat; [eauto|].
      rewrite <- (firstn_skipn (g - f0) (skipn f0 str)), ES. cbn. eauto. }
    destruct SK as (w' & SK). rewrite <- (firstn_skipn f0 str), SK. rewrite app_nth2; rewrite firstn_length; [|lia].
    replace (f0 - _)%nat with O by lia. reflexivity. }
  set (d2 := dset (sub str s (Some e)) j d).
  assert (L2 : (length d2 <= 1000)%nat) by (pose proof (dset_length (sub str s (Some e)) j d); unfold d2; lia).
  assert (H2 : Forall (fun p => plain_key (fst p) /\ plain_entry (snd p)) d2).
  { apply Forall_forall. intros p I. rewrite Forall_forall in HD. apply dset_in in I. destruct I as [->|I]; [|auto]. cbn [fst snd]. split; [|exact HJ].
    intros c I. split; [|apply NB; eapply in_sub; exact I]. apply find_some in E1. destruct E1 as (L1 & _ & B1). exact (sub_before key_end _ _ _ L1 B1 c I). }
  destruct g as [g|]; [|intros [= <- _]; auto]. apply IH; auto.
Qed.
Lemma parse_limits str j : parse str = Ok j ->
  (length (jdict j) <= 1000)%nat /\ Forall (fun p => plain_key (fst p) /\ plain_entry (snd p)) (jdict j).
Proof.
  unfold parse. cbn [parse_at]. generalize (length str). intro n.
  destruct (fnof ws str 0) as [s|]; [|intros [= <-]; cbn; split; [lia|constructor]].
  destruct (Ascii.eqb _ _) eqn:EB; [|intros [= <-]; cbn; split; [lia|constructor]]. apply Ascii.eqb_eq in EB.
  destruct (fof (Ascii.eqb "}"%char) str s) as [e|] eqn:E; [|intros [= <-]; cbn; split; [lia|constructor]].
  destruct (dict_loop _ _ _ _ _) as [[d b]| |] eqn:ED; try discriminate. cbn. intros [= <-]. cbn.
  revert ED. apply dict_loop_plain; [|intros t j0 A B C; eapply parse_plain; eauto|cbn; lia|constructor].
  apply find_some in E. destruct E as (L & HE & B). intros c I.
  assert (K : Ascii.eqb "}"%char c = false).
  { destruct (Nat.eq_dec e s) as [->|NE].
    - exfalso. rewrite (nth_indep _ _ "0"%char) in HE by lia. rewrite EB in HE. discriminate.
    - apply (sub_before (Ascii.eqb "}"%char) str (S s) e); [lia| |exact I]. intros i Hi. apply B. lia. }
  apply Ascii.eqb_neq in K. congruence.
Qed.
