(* Prop_JSON.v -- C70: structured text values survive storage and retrieval. *)
From Coq Require Import ZArith List Bool Ascii String Lia.
Import ListNotations.
From Verif Require Import Base Model_JSON Spec_JSON Proofs_JSON Proofs_JSON2.
Local Open Scope Z_scope.

(* every string is read back *)
Theorem C70_string (s : text) : get_str (set_str s) = s.
Proof. apply get_set_str. Qed.
Print Assumptions C70_string.
(* every int is read back, as an int and as its numeral *)
Theorem C70_int (z : Z) : - 2 ^ 31 <= z < 2 ^ 31 -> get_int (set_int z) = Ok z /\ get_str (set_int z) = to_string z.
Proof.
  intro H. unfold get_int, set_int. rewrite get_set_str. split; [|reflexivity]. apply stoi_numeral.
  unfold is_int, INT_MIN, INT_TOP. apply andb_true_intro. split; apply Z.leb_le; lia.
Qed.
Print Assumptions C70_int.
(* different numbers have different numerals, so texts identify them *)
Theorem C70_numerals (x y : Z) : to_string x = to_string y -> x = y.
Proof. intro H. pose proof (scan_numeral x) as A. rewrite H, scan_numeral in A. congruence. Qed.
Print Assumptions C70_numerals.
Lemma ints x : (forall z, In z x -> - 2 ^ 31 <= z < 2 ^ 31) -> forallb is_int x = true.
Proof.
  intro H. apply forallb_forall. intros z I. specialize (H z I). unfold is_int, INT_MIN, INT_TOP. apply andb_true_intro. split; apply Z.leb_le; lia.
Qed.
(* non-empty vectors *)
Theorem C70_vector (x : list Z) : x <> [] -> (forall z, In z x -> - 2 ^ 31 <= z < 2 ^ 31) -> get_vec read_int (set_vec x) = Ok x.
Proof. intros N H. apply get_set_vec; [exact N|]. now apply ints. Qed.
Print Assumptions C70_vector.
(* non-empty vectors of non-empty vectors *)
Theorem C70_vector_vector (x : list (list Z)) : x <> [] -> (forall y, In y x -> y <> [] /\ forall z, In z y -> - 2 ^ 31 <= z < 2 ^ 31) ->
  get_vec_vec (set_vec_vec x) = Ok x.
Proof.
  intros N H. apply get_set_vec_vec; [exact N|]. apply Forall_forall. intros y I. destruct (H y I) as [A B]. split; [exact A|now apply ints].
Qed.
Print Assumptions C70_vector_vector.
(* an entry holds the text of the value assigned to it last; keys never assigned are absent *)
Theorem C70_lookup (l : list (text * jvalue)) (k : text) :
  dfind k (jdict (filled l)) = option_map (fun v => JSON (text_of v) [] true) (latest k l).
Proof. apply filled_find. Qed.
Print Assumptions C70_lookup.
(* printing and parsing a dictionary gives the same object *)
Theorem C70_dictionary (l : list (text * jvalue)) : l <> [] -> (forall k v, In (k, v) l -> good_key k /\ good_value v) ->
  (List.length (nodup (list_eq_dec ascii_dec) (map fst l)) <= 1000)%nat -> parse (print (filled l)) = Ok (filled l).
Proof.
  intros N H L. rewrite filled_top. apply parse_print.
  - now apply filled_nonempty.
  - apply Forall_forall. intros p I. destruct (filled_entry l p I) as (v & A & B). destruct (H _ _ A) as [C D]. split; [exact C|].
    exists (text_of v). split; [exact B|]. now apply dterm_value.
  - apply filled_sorted.
  - pose proof (filled_length l). lia.
Qed.
Print Assumptions C70_dictionary.
(* and every key is found in the parsed object with the value assigned last *)
Theorem C70_dictionary_lookup (l : list (text * jvalue)) : l <> [] -> (forall k v, In (k, v) l -> good_key k /\ good_value v) ->
  (List.length (nodup (list_eq_dec ascii_dec) (map fst l)) <= 1000)%nat ->
  exists j, parse (print (filled l)) = Ok j /\ jvalid j = true /\
    forall k, option_map jval (dfind k (jdict j)) = option_map text_of (latest k l).
Proof.
  intros N H L. exists (filled l). split; [now apply C70_dictionary|]. split; [rewrite filled_top; reflexivity|].
  intro k. rewrite filled_find. destruct (latest k l); reflexivity.
Qed.
Print Assumptions C70_dictionary_lookup.
(* no text at all parses into more than 1000 entries, into nested dictionaries, into keys with a blank, '=' or '}', or into
   values with a blank or '}': objects that have them are never recovered from what they print *)
Theorem C70_dictionary_refuted (j : json) :
  ((1000 < List.length (jdict j))%nat \/
   exists k e, In (k, e) (jdict j) /\
     (jdict e <> [] \/ (exists c, In c k /\ (key_end c = true \/ c = "}"%char)) \/ exists c, In c (jval e) /\ (ws c = true \/ c = "}"%char))) ->
  forall str, parse str <> Ok j.
Proof.
  intros H str P. destruct (parse_limits str j P) as [L F]. rewrite Forall_forall in F. destruct H as [H|(k & e & I & H)]; [lia|].
  destruct (F _ I) as [K [E V]]. cbn [fst snd] in *. destruct H as [H|[(c & Ic & H)|(c & Ic & H)]].
  - now apply H.
  - destruct (K c Ic) as [A B]. destruct H; congruence.
  - destruct (V c Ic) as [A B]. destruct H; congruence.
Qed.
Print Assumptions C70_dictionary_refuted.
(* a string with a blank, or a brace, stored under any key is not recovered *)
Theorem C70_blank_refuted (k s : text) (c : ascii) : In c s -> ws c = true \/ c = "}"%char ->
  forall str, parse str <> Ok (filled [(k, VStr s)]).
Proof.
  intros I H. apply C70_dictionary_refuted. right. exists k, (JSON (set_str s) [] true). split; [left; reflexivity|]. right. right.
  exists c. split; [right; apply in_app_iff; left; exact I|exact H].
Qed.
Print Assumptions C70_blank_refuted.
(* an empty vector is read back as one indeterminate element *)
Theorem C70_empty_refuted : get_vec read_int (set_vec []) = UB /\ get_vec_vec (set_vec_vec []) = Ok [[]] /\
  (forall y, get_vec_vec (set_vec_vec [[]; y]) <> Ok [[]; y]).
Proof.
  split; [reflexivity|]. split; [reflexivity|]. intro y. unfold get_vec_vec, set_vec_vec.
  rewrite (get_vec_ok read_word (map set_vec [[]; y]) (map set_vec [[]; y])); [cbn; discriminate| |discriminate].
  assert (T : forall x, vterm read_word (set_vec x) (set_vec x)).
  { intro x. split; [intros b B; apply ends_bracket; [apply vec_content|exact B]|]. split; [unfold set_vec, bracketed; eauto|].
    unfold read_word. assert (K : forall c, In c (set_vec x) -> spaces c = false)
      by (apply (vec_char (fun c => spaces c = false)); try reflexivity; apply numeral_char; reflexivity).
    rewrite drop_none, word_all by auto. reflexivity. }
  cbn [map]. constructor; [apply T|]. constructor; [apply T|constructor].
Qed.
Print Assumptions C70_empty_refuted.
(* an empty object prints as the empty text, which parses as invalid *)
Theorem C70_empty_object_refuted : exists j, parse (print (filled [])) = Ok j /\ jvalid j = false /\ jvalid (filled []) = true.
Proof. eexists. repeat split. Qed.
Print Assumptions C70_empty_object_refuted.

(* ---- cases *)
Definition sample : list (text * jvalue) :=
  [(st "size", VVec [3; -4; 5]); (st "name", VStr (st "a=b,[c")); (st "table", VVecVec [[1; 2]; []; [-2147]]); (st "name", VStr (st "old")); (st "n", VInt (-17))].
Example C70_case_vector : get_vec read_int (set_vec [0; -12; 2147483647]) = Ok [0; -12; 2147483647] /\ get_vec_vec (set_vec_vec [[1]; [-2; 30]]) = Ok [[1]; [-2; 30]].
Proof. split; [apply C70_vector|apply C70_vector_vector]; try discriminate; cbn; intros z I; repeat destruct I as [<-|I]; try destruct I; try lia;
  (split; [discriminate|]; cbn; intros z I; repeat destruct I as [<-|I]; try destruct I; lia). Qed.
Example C70_case_int : get_int (set_int (-2147483648)) = Ok (-2147483648) /\ get_str (set_str (st "")) = st "".
Proof. split; [apply C70_int; lia|apply C70_string]. Qed.
Example C70_case_dictionary : print (filled sample) = st "{n=""-17"",name=""a=b,[c"",size=[3,-4,5],table=[[1,2],[],[-2147]]}" /\ parse (print (filled sample)) = Ok (filled sample).
Proof.
  split; [vm_compute; reflexivity|]. apply C70_dictionary; [discriminate| |vm_compute; lia].
  intros k v I. cbn in I. repeat destruct I as [[= <- <-]|I]; try destruct I; (split; [split; [|split; discriminate]|]); cbn; try exact Logic.I;
    intros c I; repeat destruct I as [<-|I]; try destruct I; repeat split; discriminate.
Qed.
Example C70_case_nested : parse (st "{a={b=1},c=2}") = Ok (JSON [] [(st "a", JSON [] [] false)] true).
Proof. vm_compute. reflexivity. Qed.
