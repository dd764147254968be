(* Proofs_JSON.v -- numbers, terms and vectors of the JSON-like store. *)
From Coq Require Import ZArith List Bool Ascii Lia.
Import ListNotations.
From Verif Require Import Base Model_JSON Spec_JSON.
Open Scope Z_scope.

(* ---- searching *)
Lemma find_idx_skip p t b : (forall c, In c t -> p c = false) -> find_idx p (t ++ b) = option_map (Nat.add (length t)) (find_idx p b).
Proof.
  induction t as [|c t IH]; cbn; intro H.
  - destruct (find_idx p b); reflexivity.
  - rewrite (H c) by auto. rewrite IH by auto. destruct (find_idx p b); reflexivity.
Qed.
Lemma skipn_len (a b : text) : skipn (length a) (a ++ b) = b.
Proof. rewrite skipn_app, skipn_all, Nat.sub_diag. reflexivity. Qed.
Lemma find_skip p a t b : (forall c, In c t -> p c = false) ->
  find_from p (a ++ t ++ b) (length a) = option_map (Nat.add (length a + length t)) (find_idx p b).
Proof.
  intro H. unfold find_from. rewrite skipn_len, find_idx_skip by auto. destruct (find_idx p b); cbn; [f_equal; lia|reflexivity].
Qed.
Lemma find_hit p a t c b : (forall c, In c t -> p c = false) -> p c = true ->
  find_from p (a ++ t ++ c :: b) (length a) = Some (length a + length t)%nat.
Proof. intros H E. rewrite find_skip by auto. cbn. rewrite E. cbn. f_equal. lia. Qed.
Lemma find_none p a t : (forall c, In c t -> p c = false) -> find_from p (a ++ t) (length a) = None.
Proof. intro H. rewrite <- (app_nil_r t). rewrite find_skip by auto. reflexivity. Qed.
Lemma nth_mid (a : text) c b d : nth (length a) (a ++ c :: b) d = c.
Proof. rewrite app_nth2, Nat.sub_diag by lia. reflexivity. Qed.
Lemma nth_mid2 (a t : text) c b d : nth (length a + length t) (a ++ t ++ c :: b) d = c.
Proof. rewrite app_assoc, <- app_length. apply nth_mid. Qed.
Lemma sub_mid a t b : sub (a ++ t ++ b) (length a) (Some (length a + length t)%nat) = t.
Proof.
  unfold sub. replace (_ <? _)%nat with false by (symmetry; apply Nat.ltb_ge; lia).
  rewrite skipn_len. replace (length a + length t - length a)%nat with (length t) by lia.
  rewrite firstn_app, Nat.sub_diag, firstn_all. cbn. apply app_nil_r.
Qed.
Lemma sub_end a t : sub (a ++ t) (length a) None = t.
Proof. apply skipn_len. Qed.

(* ---- decimal numbers *)
Lemma digit_code d : 0 <= d <= 9 -> nat_of_ascii (digit d) = (48 + Z.to_nat d)%nat.
Proof. intro H. unfold digit. apply nat_ascii_embedding. lia. Qed.
Lemma digit_is d : 0 <= d <= 9 -> is_digit (digit d) = true.
Proof. intro H. unfold is_digit. rewrite digit_code by auto. apply andb_true_intro; split; apply Nat.leb_le; lia. Qed.
Lemma digit_val d : 0 <= d <= 9 -> dval (digit d) = d.
Proof. intro H. unfold dval. rewrite digit_code by auto. lia. Qed.
Lemma digits_ok f : forall n, 0 <= n < Z.of_nat f ->
  digits f n <> [] /\ (forall c, In c (digits f n) -> is_digit c = true) /\ value_of (digits f n) = n.
Proof.
  induction f as [|f IH]; intros n H; [lia|]. cbn [digits]. destruct (Z.ltb_spec n 10).
  - split; [discriminate|]. split; [intros c [<-|[]]; apply digit_is; lia|]. unfold value_of; cbn [fold_left]. rewrite digit_val; lia.
  - pose proof (Z.mod_pos_bound n 10 ltac:(lia)). pose proof (Z.div_mod n 10 ltac:(lia)).
    destruct (IH (n / 10)) as (A & B & C). { split; [apply Z.div_pos; lia|]. lia. }
    split; [destruct (digits f (n / 10)); discriminate|]. split.
    + intros c I. apply in_app_iff in I. destruct I as [I|[<-|[]]]; [auto|apply digit_is; lia].
    + unfold value_of in *. rewrite fold_left_app, C. cbn [fold_left]. rewrite digit_val by lia. lia.
Qed.
Lemma take_all s : (forall c, In c s -> is_digit c = true) -> take_digits s = s.
Proof. induction s as [|c s IH]; cbn; intro H; [reflexivity|]. rewrite H, IH by auto. reflexivity. Qed.
Lemma digit_cases c : is_digit c = true -> In c (map digit (map Z.of_nat (seq 0 10))).
Proof.
  unfold is_digit. intro H. apply andb_prop in H. destruct H as [H1 H2]. apply Nat.leb_le in H1, H2.
  apply in_map_iff. exists (dval c). split.
  - unfold digit, dval. rewrite <- (ascii_nat_embedding c) at 2. f_equal. lia.
  - apply in_map_iff. exists (nat_of_ascii c - 48)%nat. split; [unfold dval; lia|]. apply in_seq. lia.
Qed.
Lemma numeral_char (p : ascii -> bool) : forallb (fun c => negb (p c)) ("-"%char :: map digit (map Z.of_nat (seq 0 10))) = true ->
  forall z c, In c (to_string z) -> p c = false.
Proof.
  intros H z c I. rewrite forallb_forall in H. apply negb_true_iff. apply H. unfold to_string in I.
  destruct (Z.ltb_spec z 0).
  - destruct I as [<-|I]; [left; reflexivity|]. right. apply digit_cases.
    destruct (digits_ok (S (Z.to_nat (- z))) (- z) ltac:(lia)) as (_ & B & _). auto.
  - right. apply digit_cases. destruct (digits_ok (S (Z.to_nat z)) z ltac:(lia)) as (_ & B & _). auto.
Qed.
Lemma numeral_nonempty z : to_string z <> [].
Proof.
  unfold to_string. destruct (Z.ltb_spec z 0); [discriminate|].
  destruct (digits_ok (S (Z.to_nat z)) z ltac:(lia)) as (A & _). exact A.
Qed.
Lemma drop_none s : (forall c, In c s -> spaces c = false) -> drop_spaces s = s.
Proof. destruct s as [|c s]; cbn; intro H; [reflexivity|]. rewrite H by auto. reflexivity. Qed.
Lemma scan_digits s : s <> [] -> (forall c, In c s -> is_digit c = true) -> scan_nat s = Some (value_of s).
Proof. intros N H. unfold scan_nat. rewrite take_all by auto. destruct s; [congruence|reflexivity]. Qed.
Lemma scan_numeral z : scan_int (to_string z) = Some z.
Proof.
  unfold scan_int. rewrite drop_none by (apply numeral_char; reflexivity). unfold to_string. destruct (Z.ltb_spec z 0).
  - destruct (digits_ok (S (Z.to_nat (- z))) (- z) ltac:(lia)) as (A & B & C). rewrite Ascii.eqb_refl.
    rewrite scan_digits, C by auto. cbn. f_equal. lia.
  - destruct (digits_ok (S (Z.to_nat z)) z ltac:(lia)) as (A & B & C). destruct (digits _ z) as [|c s] eqn:E; [congruence|].
    assert (K : forall d, is_digit d = false -> Ascii.eqb c d = false).
    { intros d D. apply Ascii.eqb_neq. intros ->. rewrite B in D by (left; reflexivity). discriminate. }
    rewrite !K by reflexivity. rewrite scan_digits, C by auto. reflexivity.
Qed.
Lemma stoi_numeral z : is_int z = true -> stoi (to_string z) = Ok z.
Proof. intro H. unfold stoi. rewrite scan_numeral, H. reflexivity. Qed.
Lemma read_numeral z : is_int z = true -> read_int (to_string z) = Ok z.
Proof.
  intro H. unfold read_int. rewrite drop_none by (apply numeral_char; reflexivity). rewrite scan_numeral.
  pose proof (numeral_nonempty z). destruct (to_string z); [congruence|]. unfold is_int in H. apply andb_prop in H. f_equal. lia.
Qed.

(* ---- quoted strings *)
Lemma get_set_str s : get_str (set_str s) = s.
Proof.
  unfold get_str, set_str. cbn [hd tl]. change (quo :: s ++ [quo]) with ((quo :: s) ++ [quo]). rewrite last_last, Ascii.eqb_refl.
  rewrite app_length. cbn [length]. replace (1 <? _)%nat with true by (symmetry; apply Nat.ltb_lt; lia). cbn. apply removelast_last.
Qed.

(* ---- terms *)
Definition ends (t b : text) : Prop := forall a,
  end_of_term (a ++ t ++ b) (length a) =
  Ok (match b with c :: _ => if Ascii.eqb c ","%char then Some (length a + length t)%nat else None | [] => None end).
(* content of a bracket *)
Definition content (w : text) : Prop := forall a b fuel, (length w + 2 <= fuel)%nat ->
  clause_loop fuel (a ++ w ++ "]"%char :: b) (fof brackets (a ++ w ++ "]"%char :: b) (length a)) = Ok (Some (length a + length w)%nat).
Definition sep (b : text) : Prop := b = [] \/ b = ["]"%char] \/ exists b', b = ","%char :: b'.

Lemma content_flat w : (forall c, In c w -> brackets c = false) -> content w.
Proof.
  intros H a b fuel F. unfold fof. rewrite find_hit by auto. destruct fuel as [|f]; [lia|]. cbn [clause_loop].
  rewrite nth_mid2. reflexivity.
Qed.
Lemma content_nested us : Forall (fun u => forall c, In c u -> brackets c = false) us -> content (join (map bracketed us)).
Proof.
  induction us as [|u us IH]; intro H; [apply content_flat; intros ? []|].
  inversion H as [|? ? Hu Hus]; subst. specialize (IH Hus). intros a b fuel F.
  assert (J : exists w, join (map bracketed (u :: us)) = bracketed u ++ w /\
     ((us = [] /\ w = []) \/ (us <> [] /\ w = ","%char :: join (map bracketed us)))).
  { destruct us as [|u' us]; cbn [map join].
    - exists []. rewrite app_nil_r. auto.
    - eexists. split; [reflexivity|]. right. split; [discriminate|reflexivity]. }
  destruct J as (w & EJ & Hw). rewrite EJ in *.
  assert (LB : length (bracketed u) = (length u + 2)%nat) by (unfold bracketed; cbn; rewrite app_length; cbn; lia).
  rewrite app_length, LB in F.
  set (str := a ++ _ ++ "]"%char :: b).
  assert (S1 : str = a ++ [] ++ "["%char :: u ++ "]"%char :: w ++ "]"%char :: b)
    by (unfold str, bracketed; rewrite <- !app_assoc; cbn; rewrite <- !app_assoc; reflexivity).
  assert (S2 : str = (a ++ ["["%char]) ++ u ++ "]"%char :: w ++ "]"%char :: b)
    by (unfold str, bracketed; rewrite <- !app_assoc; cbn; rewrite <- !app_assoc; reflexivity).
  assert (S3 : str = (a ++ "["%char :: u ++ ["]"%char]) ++ w ++ "]"%char :: b)
    by (unfold str, bracketed; rewrite <- !app_assoc; cbn; rewrite <- !app_assoc; reflexivity).
  assert (E1 : fof brackets str (length a) = Some (length a)).
  { unfold fof. rewrite S1, find_hit by (cbn; tauto || reflexivity). cbn. f_equal. lia. }
  rewrite E1. destruct fuel as [|f]; [lia|]. cbn [clause_loop].
  replace (nth (length a) str "]"%char) with "["%char by (rewrite S1; symmetry; apply nth_mid). rewrite Ascii.eqb_refl.
  assert (E2 : clause_loop f str (fof brackets str (S (length a))) = Ok (Some (length a + 1 + length u)%nat)).
  { rewrite S2. replace (S (length a)) with (length (a ++ ["["%char])) by (rewrite app_length; cbn; lia).
    rewrite (content_flat u Hu) by lia. rewrite app_length. reflexivity. }
  rewrite E2. cbn [bind].
  replace (S (length a + 1 + length u)) with (length (a ++ "["%char :: u ++ ["]"%char]))
    by (rewrite app_length; cbn; rewrite app_length; cbn; lia).
  set (a3 := a ++ "["%char :: u ++ ["]"%char]) in *.
  assert (L3 : length a3 = (length a + 2 + length u)%nat) by (unfold a3; rewrite app_length; cbn; rewrite app_length; cbn; lia).
  destruct Hw as [[-> ->]|[N ->]].
  - rewrite S3. rewrite (content_flat []) by (cbn; tauto || lia). rewrite L3, app_nil_r, LB. cbn [length]. do 2 f_equal. lia.
  - rewrite S3.
    assert (E4 : fof brackets (a3 ++ (","%char :: join (map bracketed us)) ++ "]"%char :: b) (length a3)
               = fof brackets ((a3 ++ [","%char]) ++ join (map bracketed us) ++ "]"%char :: b) (length (a3 ++ [","%char]))).
    { unfold fof, find_from. rewrite !skipn_len. cbn. rewrite app_length. cbn.
      destruct (find_idx _ _); cbn; [f_equal; lia|reflexivity]. }
    rewrite E4.
    replace (a3 ++ (","%char :: join (map bracketed us)) ++ "]"%char :: b) with ((a3 ++ [","%char]) ++ join (map bracketed us) ++ "]"%char :: b)
      by (rewrite <- app_assoc; reflexivity).
    cbn [length] in F. rewrite IH by lia. rewrite !app_length, L3, LB. cbn [length]. do 2 f_equal. lia.
Qed.

Lemma ends_plain t b : t <> [] -> hd quo t <> quo -> (forall c, In c t -> term_end c = false) -> sep b -> ends t b.
Proof.
  intros N Q H B a. unfold end_of_term. destruct t as [|c t]; [congruence|]. cbn [hd] in Q.
  change (a ++ (c :: t) ++ b) with (a ++ c :: (t ++ b)) at 1. rewrite nth_mid.
  apply Ascii.eqb_neq in Q. rewrite Q. unfold fof. rewrite find_skip by auto. cbn [term_loop].
  destruct B as [->|[->|(b' & ->)]]; cbn [find_idx option_map]; [reflexivity|reflexivity|].
  change (term_end ","%char) with true. cbn [option_map]. rewrite Nat.add_0_r, nth_mid2. reflexivity.
Qed.
Lemma ends_bracket w b : content w -> sep b -> ends (bracketed w) b.
Proof.
  intros C B a. unfold end_of_term, bracketed.
  set (str := a ++ _ ++ b).
  assert (S1 : str = a ++ [] ++ "["%char :: w ++ "]"%char :: b) by (unfold str; cbn; rewrite <- !app_assoc; reflexivity).
  assert (S2 : str = (a ++ ["["%char]) ++ w ++ "]"%char :: b) by (unfold str; cbn; rewrite <- !app_assoc; reflexivity).
  assert (S3 : str = ((a ++ ["["%char]) ++ w) ++ ["]"%char] ++ b) by (rewrite S2, <- !app_assoc; reflexivity).
  assert (LS : length str = (length a + length w + 2 + length b)%nat)
    by (rewrite S3, !app_length; cbn; lia).
  assert (N0 : forall d, nth (length a) str d = "["%char) by (intro d; rewrite S1; apply nth_mid).
  rewrite N0. change (Ascii.eqb "[" quo) with false. cbv iota.
  assert (E1 : fof term_end str (length a) = Some (length a)).
  { unfold fof. rewrite S1, find_hit by (cbn; tauto || reflexivity). cbn. f_equal. lia. }
  rewrite E1. cbn [term_loop]. rewrite N0. rewrite Ascii.eqb_refl.
  assert (E2 : end_of_clause str (length a) = Ok (Some (length a + 1 + length w)%nat)).
  { unfold end_of_clause. rewrite LS, S2. replace (S (length a)) with (length (a ++ ["["%char])) by (rewrite app_length; cbn; lia).
    rewrite C by lia. rewrite app_length. reflexivity. }
  rewrite E2. cbn [bind].
  replace (length a + 1 + length w)%nat with (length ((a ++ ["["%char]) ++ w)) by (rewrite !app_length; cbn; lia).
  destruct (length str) as [|f] eqn:EL; [lia|].
  unfold fof. rewrite S3, find_skip by (intros c [<-|[]]; reflexivity).
  destruct B as [->|[->|(b' & ->)]]; cbn [find_idx option_map term_loop]; [reflexivity|reflexivity|].
  change (term_end2 ","%char) with true. cbn [option_map]. rewrite Nat.add_0_r, nth_mid2. cbn.
  rewrite !app_length. cbn. do 2 f_equal. lia.
Qed.
Lemma ends_quoted s b : (forall c, In c s -> c <> quo) -> b = [] \/ (exists b', b = ","%char :: b') -> ends (set_str s) b.
Proof.
  intros H B a. unfold end_of_term, set_str.
  set (str := a ++ _ ++ b).
  assert (S1 : str = a ++ quo :: (s ++ quo :: b)) by (unfold str; cbn; rewrite <- !app_assoc; reflexivity).
  assert (S2 : str = (a ++ [quo]) ++ s ++ quo :: b) by (rewrite S1, <- !app_assoc; reflexivity).
  assert (LS : length str = (length a + length s + 2 + length b)%nat)
    by (rewrite S2, !app_length; cbn; lia).
  replace (nth (length a) str ","%char) with quo by (rewrite S1; symmetry; apply nth_mid). rewrite Ascii.eqb_refl. unfold fof.
  replace (S (length a)) with (length (a ++ [quo])) by (rewrite app_length; cbn; lia).
  rewrite LS, S2, find_hit; [|intros c I; apply Ascii.eqb_neq; intro E; apply (H c I); auto|apply Ascii.eqb_refl].
  rewrite app_length. cbn [length]. rewrite app_length. cbn [length].
  destruct B as [->|(b' & ->)]; cbn [length].
  - replace (_ <? _)%nat with false by (symmetry; apply Nat.ltb_ge; lia). reflexivity.
  - replace (_ <? _)%nat with true by (symmetry; apply Nat.ltb_lt; lia). cbn. do 2 f_equal. lia.
Qed.

(* ---- vectors *)
Lemma join_cons t ts : ts <> [] -> join (t :: ts) = t ++ ","%char :: join ts.
Proof. destruct ts; [congruence|reflexivity]. Qed.
Definition vterm {A} (read : text -> res A) (t : text) (v : A) : Prop :=
  (forall b, sep b -> ends t b) /\ (exists c t', t = c :: t' /\ skip_vec c = false) /\ read t = Ok v.
Lemma vec_loop_ok {A} (read : text -> res A) : forall ts vs, Forall2 (vterm read) ts vs -> ts <> [] ->
  forall a fuel, (length ts <= fuel)%nat -> vec_loop read fuel (a ++ join ts ++ ["]"%char]) (length a) = Ok vs.
Proof.
  induction 1 as [|t v ts vs (He & (c & t' & Et & Hc) & Hr) HF IH]; intros N a fuel F; [congruence|].
  destruct fuel as [|f]; [cbn in F; lia|]. cbn [length] in F. cbn [vec_loop].
  destruct ts as [|t2 ts].
  - inversion HF; subst vs. cbn [join]. rewrite (He ["]"%char]) by (right; left; reflexivity). cbn [bind].
    change (Ascii.eqb "]" ",") with false. cbv iota.
    replace (length (a ++ t ++ ["]"%char]) - 1)%nat with (length a + length t)%nat by (rewrite !app_length; cbn; lia).
    cbv zeta. rewrite sub_mid, Hr. cbn [bind]. unfold fnof.
    replace (find_from _ _ _) with (@None nat); [reflexivity|].
    rewrite app_assoc, <- app_length. symmetry. apply find_none. intros d [<-|[]]. reflexivity.
  - rewrite join_cons in * by discriminate.
    replace ((t ++ ","%char :: join (t2 :: ts)) ++ ["]"%char]) with (t ++ ","%char :: join (t2 :: ts) ++ ["]"%char])
      by (rewrite <- app_assoc; reflexivity).
    rewrite (He (","%char :: join (t2 :: ts) ++ ["]"%char])) by (right; right; eauto). cbn [bind]. rewrite Ascii.eqb_refl. cbv zeta.
    rewrite sub_mid, Hr. cbn [bind].
    inversion HF as [|? ? ? ? (_ & (c2 & t2' & Et2 & Hc2) & _) _]; subst.
    assert (E : exists w, join ((c2 :: t2') :: ts) ++ ["]"%char] = c2 :: w) by (destruct ts; cbn; eauto).
    destruct E as (w & Ew).
    assert (EF : fnof skip_vec (a ++ (c :: t') ++ ","%char :: join ((c2 :: t2') :: ts) ++ ["]"%char]) (length a + length (c :: t'))
               = Some (length (a ++ (c :: t') ++ [","%char]))).
    { unfold fnof. rewrite Ew.
      replace (a ++ (c :: t') ++ ","%char :: c2 :: w) with ((a ++ c :: t') ++ [","%char] ++ c2 :: w) by (rewrite <- app_assoc; reflexivity).
      rewrite <- app_length, find_hit; [rewrite !app_length; cbn; f_equal; lia|intros d [<-|[]]; reflexivity|rewrite Hc2; reflexivity]. }
    rewrite EF.
    replace (a ++ (c :: t') ++ ","%char :: join ((c2 :: t2') :: ts) ++ ["]"%char])
      with ((a ++ (c :: t') ++ [","%char]) ++ join ((c2 :: t2') :: ts) ++ ["]"%char]) by (rewrite <- !app_assoc; reflexivity).
    rewrite IH by (discriminate || lia). reflexivity.
Qed.
Lemma join_long ts : Forall (fun t : text => t <> []) ts -> (length ts <= length (join ts))%nat.
Proof.
  induction 1 as [|t ts Ht HF IH]; [cbn; lia|]. destruct t as [|c t]; [congruence|].
  destruct ts; [cbn; lia|]. rewrite join_cons, app_length by discriminate. cbn [length] in *. lia.
Qed.
Lemma get_vec_ok {A} (read : text -> res A) ts vs : Forall2 (vterm read) ts vs -> ts <> [] -> get_vec read (bracketed (join ts)) = Ok vs.
Proof.
  intros H N. unfold get_vec, bracketed. cbn [hd length]. rewrite app_length. cbn [length].
  replace (_ <? 2)%nat with false by (symmetry; apply Nat.ltb_ge; lia). rewrite Ascii.eqb_refl. cbn [negb orb].
  change ("["%char :: join ts ++ ["]"%char]) with (["["%char] ++ join ts ++ ["]"%char]). apply vec_loop_ok; auto.
  assert (K : (length ts <= length (join ts))%nat).
  { apply join_long. clear N. induction H as [|t v ts vs (_ & (c & t' & -> & _) & _) _ IH]; constructor; [discriminate|auto]. }
  lia.
Qed.
Lemma numeral_term z : is_int z = true -> vterm read_int (to_string z) z.
Proof.
  intro H. split; [|split].
  - intros b B. apply ends_plain; auto.
    + apply numeral_nonempty.
    + pose proof (numeral_nonempty z). pose proof (numeral_char (Ascii.eqb quo) eq_refl z) as K.
      destruct (to_string z) as [|c t]; [congruence|]. cbn. intros ->. specialize (K quo (or_introl eq_refl)). rewrite Ascii.eqb_refl in K. discriminate.
    + apply numeral_char. reflexivity.
  - pose proof (numeral_nonempty z). pose proof (numeral_char skip_vec eq_refl z) as K.
    destruct (to_string z) as [|c t]; [congruence|]. exists c, t. split; [reflexivity|]. apply K. left. reflexivity.
  - apply read_numeral, H.
Qed.
Lemma numerals_terms x : forallb is_int x = true -> Forall2 (vterm read_int) (map to_string x) x.
Proof. induction x as [|z x IH]; cbn; intro H; constructor; apply andb_prop in H; [apply numeral_term|apply IH]; tauto. Qed.
Lemma get_set_vec x : x <> [] -> forallb is_int x = true -> get_vec read_int (set_vec x) = Ok x.
Proof. intros N H. apply get_vec_ok; [apply numerals_terms, H|]. destruct x; [congruence|discriminate]. Qed.
Lemma join_char (P : ascii -> Prop) ts : P ","%char -> Forall (fun t => forall c, In c t -> P c) ts -> forall c, In c (join ts) -> P c.
Proof.
  intros HP H. induction H as [|t ts Ht HF IH]; intros c I; [destruct I|].
  destruct ts as [|t2 ts]; [auto|]. rewrite join_cons in I by discriminate. apply in_app_iff in I. destruct I as [I|[<-|I]]; auto.
Qed.
Lemma vec_flat x c : In c (join (map to_string x)) -> brackets c = false.
Proof.
  apply (join_char (fun c => brackets c = false)); [reflexivity|]. apply Forall_forall. intros t I. apply in_map_iff in I.
  destruct I as (z & <- & _). apply numeral_char. reflexivity.
Qed.
Lemma vec_content x : content (join (map to_string x)).
Proof. apply content_flat, vec_flat. Qed.
Lemma vec_vec_content x : content (join (map set_vec x)).
Proof.
  replace (map set_vec x) with (map bracketed (map (fun y => join (map to_string y)) x)) by (rewrite map_map; reflexivity).
  apply content_nested. apply Forall_forall. intros u I. apply in_map_iff in I. destruct I as (y & <- & _). apply vec_flat.
Qed.
Lemma vec_char (P : ascii -> Prop) : P "["%char -> P "]"%char -> P ","%char -> (forall z c, In c (to_string z) -> P c) ->
  forall x c, In c (set_vec x) -> P c.
Proof.
  intros P1 P2 P3 H x c I. unfold set_vec, bracketed in I. destruct I as [<-|I]; [auto|]. apply in_app_iff in I.
  destruct I as [I|[<-|[]]]; [|auto]. revert c I. apply join_char; auto. apply Forall_forall. intros t I. apply in_map_iff in I.
  destruct I as (z & <- & _). exact (H z).
Qed.
Lemma vec_vec_char (P : ascii -> Prop) : P "["%char -> P "]"%char -> P ","%char -> (forall z c, In c (to_string z) -> P c) ->
  forall x c, In c (set_vec_vec x) -> P c.
Proof.
  intros P1 P2 P3 H x c I. unfold set_vec_vec, bracketed in I. destruct I as [<-|I]; [auto|]. apply in_app_iff in I.
  destruct I as [I|[<-|[]]]; [|auto]. revert c I. apply join_char; auto. apply Forall_forall. intros t I. apply in_map_iff in I.
  destruct I as (z & <- & _). apply vec_char; auto.
Qed.
Lemma word_all s : (forall c, In c s -> spaces c = false) -> word s = s.
Proof. induction s as [|c s IH]; intro H; [reflexivity|]. cbn [word]. rewrite (H c) by (left; reflexivity). rewrite IH by (intros d I; apply H; right; exact I). reflexivity. Qed.
Lemma get_set_vec_vec x : x <> [] -> Forall (fun y => y <> [] /\ forallb is_int y = true) x -> get_vec_vec (set_vec_vec x) = Ok x.
Proof.
  intros N H. unfold get_vec_vec, set_vec_vec. rewrite (get_vec_ok read_word (map set_vec x) (map set_vec x)).
  - cbn [bind]. clear N. induction H as [|y x (Ny & Hy) HF IH]; [reflexivity|]. cbn [map mapR]. rewrite get_set_vec, IH by auto. reflexivity.
  - clear N H. induction x as [|y x IH]; cbn; constructor; [|exact IH]. split; [|split].
    + intros b B. apply ends_bracket; [apply vec_content|exact B].
    + unfold set_vec, bracketed. eauto.
    + unfold read_word. assert (K : forall c, In c (set_vec y) -> spaces c = false)
        by (apply (vec_char (fun c => spaces c = false)); try reflexivity; apply numeral_char; reflexivity).
      rewrite drop_none, word_all by auto. reflexivity.
  - destruct x; [congruence|discriminate].
Qed.
