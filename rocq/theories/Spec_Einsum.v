(* Spec_Einsum.v -- vocabulary for statements about einsum strings. *)
From Coq Require Export Ascii.
From Verif Require Import Base Model_Index Model_View Model_Tensor Spec_Index Spec_View Spec_Tensor.
Local Open Scope Z_scope.

(* the distinct characters of s in order of first occurrence *)
Fixpoint letters (s : list ascii) : list ascii :=
  match s with [] => [] | a :: s' => a :: filter (fun b => negb (Ascii.eqb b a)) (letters s') end.
(* c occurs in s *)
Definition isin (s : list ascii) (c : ascii) : bool := existsb (Ascii.eqb c) s.
Definition notin (s : list ascii) (c : ascii) : bool := negb (isin s c).
(* the positions at which c occurs in s *)
Definition occ (s : list ascii) (c : ascii) : list Z :=
  filter (fun i => match nth_error s (Z.to_nat i) with Some a => Ascii.eqb a c | None => false end) (zrange (Z.of_nat (length s))).
(* ids are given out in the order of L, letter c taking w c of them: the first id of c *)
Fixpoint start (w : ascii -> Z) (L : list ascii) (c : ascii) : Z :=
  match L with [] => 0 | a :: L' => if Ascii.eqb a c then 0 else w a + start w L' c end.
Definition total (w : ascii -> Z) (L : list ascii) : Z := fold_right (fun c t => w c + t) 0 L.
Definition one (c : ascii) : Z := 1.
(* an einsum string *)
Definition arrow : list ascii := ["-"%char; ">"%char].
Definition str1 (xs rs : list ascii) : list ascii := xs ++ arrow ++ rs.
Definition str2 (xs ys rs : list ascii) : list ascii := xs ++ [","%char] ++ ys ++ arrow ++ rs.
Definition plain (s : list ascii) : Prop := Forall (fun c => c <> "_"%char /\ c <> ","%char /\ c <> "-"%char) s.
(* letters read like the characters they are *)
Definition gather_letter (c : ascii) : bool := Ascii.eqb c "S"%char.
Definition star (c : ascii) : bool := Ascii.eqb c "*"%char.
Definition convolved (c : ascii) : bool := existsb (Ascii.eqb c) ["U"%char; "V"%char; "W"%char].

(* assignments of values to letters: e with the letters in L set to the values in t *)
Fixpoint over (e : ascii -> Z) (L : list ascii) (t : list Z) : ascii -> Z :=
  match L, t with a :: L', v :: t' => fun c => if Ascii.eqb c a then v else over e L' t' c | _, _ => e end.
(* every letter of s has a value below its dimension *)
Definition fits (D e : ascii -> Z) (s : list ascii) : Prop := forall c, In c s -> 0 <= e c < D c.
(* ix gives equal values to equal letters of s *)
Definition coherent (s : list ascii) (ix : list Z) : Prop := exists e, ix = map e s.
(* the sum of the strides of v at the positions of letter c *)
Definition lstride (v : view) (s : list ascii) (c : ascii) : Z := fold_right Z.add 0 (map (fun i => nth (Z.to_nat i) (vstr v) 0) (occ s c)).
