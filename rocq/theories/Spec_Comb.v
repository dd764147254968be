(* Spec_Comb.v -- independent vocabulary for C51, C52. *)
From Verif Require Import Base Model_Comb Spec_Math.
From Coq Require Import Sorting.Sorted.
Local Open Scope Z_scope.
(* increasing sequences of m numbers below n *)
Definition increasing (n m : Z) (x : list Z) : Prop := Z.of_nat (length x) = m /\ StronglySorted Z.lt x /\ Forall (fun v => 0 <= v < n) x.
(* binomial coefficients by Pascal's rule *)
Fixpoint binom (n m : nat) : Z :=
  match m, n with O, _ => 1 | S _, O => 0 | S m', S n' => binom n' m' + binom n' m end.
(* the object for (n,m): branch i is the object for (n-i-1,m-1) *)
Fixpoint proper (k : nat) (n : Z) (c : comb) : Prop :=
  cn c = n /\ cm c = Z.of_nat k /\
  match k with
  | O => False
  | S O => True
  | S k' => Z.of_nat (length (csub c)) = Z.max 0 (n - Z.of_nat k + 1) /\ forall i s, nth_error (csub c) i = Some s -> proper k' (n - Z.of_nat i - 1) s
  end.
(* ... with right counts throughout *)
Fixpoint counted (k : nat) (n : Z) (c : comb) : Prop :=
  cn c = n /\ cm c = Z.of_nat k /\ cN c = Some (binom (Z.to_nat n) k) /\
  match k with
  | O => False
  | S O => True
  | S k' => Z.of_nat (length (csub c)) = Z.max 0 (n - Z.of_nat k + 1) /\ forall i s, nth_error (csub c) i = Some s -> counted k' (n - Z.of_nat i - 1) s
  end.
