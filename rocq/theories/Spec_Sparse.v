(* Specification vocabulary for the sparse matrices. *)
From Coq Require Import ZArith List Bool Lia.
Import ListNotations.
From Verif Require Import Base BaseFacts Map Model_Containers Proofs_Containers Proofs_Containers2 Model_Sparse.
Open Scope Z_scope.

(* the cells of a stored row *)
Definition flat2 (r : list (Z * Z)) : list Z := flat_map (fun p => [fst p; snd p]) r.
Definition rowz (rows : list (list (Z * Z))) (i : Z) : list (Z * Z) := nth (Z.to_nat i) rows [].
(* the elements a CSR matrix with these rows stores: (row, column, value), row by row *)
Definition row_elems (i : Z) (r : list (Z * Z)) : list (Z * Z * Z) := map (fun p => (i, fst p, snd p)) r.
Definition elems (rows : list (list (Z * Z))) : list (Z * Z * Z) := concat (map (fun i => row_elems i (rowz rows i)) (zrange (zlen rows))).
(* A stores exactly these rows: columns in range and stored once per row *)
Definition csr_rep (A : csr) (rows : list (list (Z * Z))) : Prop :=
  cn A = zlen rows /\ 0 <= cm A /\ prep (cpool A) (map flat2 rows) /\ 2 * zlen (elems rows) <= atail (cpool A) /\
  Forall (fun r => NoDup (map fst r) /\ Forall (fun p => 0 <= fst p < cm A) r) rows.
Definition swap3 (c : Z * Z * Z) : Z * Z * Z := (snd (fst c), fst (fst c), snd c).
(* R is the n by m matrix with entries x *)
Definition is_dense (R : dense) (n m : Z) (x : Z -> Z -> Z) : Prop :=
  dn R = n /\ dm R = m /\ forall i j, 0 <= i < n -> 0 <= j < m -> dval R i j = x i j.
(* the entry at (i,j) of a list of stored elements *)
Definition entry_of (l : list (Z * Z * Z)) (i j : Z) : Z :=
  match find (fun c => (fst (fst c) =? i) && (snd (fst c) =? j)) l with Some c => snd c | None => 0 end.
