(* Spec_Math.v -- vocabulary for statements about primes, factored rationals, modular numbers, determinants and rows. *)
From Verif Require Import Base Map Model_Index Model_View Model_Math.
From Coq Require Export QArith Znumtheory Sorting.Sorted Factorial.
Local Open Scope Z_scope.

(* ---- factored rationals ---- *)
(* the number a factored form stands for: the product of p^e *)
Definition value (f : factors) : Q := fold_right (fun x r => (Qpower (inject_Z (fst x)) (snd x) * r)%Q) 1%Q f.
(* n! *)
Definition zfact (n : Z) : Z := Z.of_nat (fact (Z.to_nat n)).
(* (a+b-c)! (a-b+c)! (-a+b+c)! / (a+b+c+1)! *)
Definition delta2 (a b c : Z) : Q :=
  (inject_Z (zfact (a + b - c) * zfact (a - b + c) * zfact (- a + b + c)) / inject_Z (zfact (a + b + c + 1)))%Q.
(* what a program can build: conversions, products, quotients, factorials and squared delta factors *)
Inductive expr :=
| EInt (n : Z)             (* frational(n) *)
| EPQ (p q : Z)            (* frational(p,q) *)
| EMul (a b : expr)        (* a*b *)
| EMulInt (a : expr) (n : Z)  (* a*n *)
| EDiv (a b : expr)        (* a/b *)
| EFact (n : Z)            (* ffactorial(n) *)
| EDelta (a b c : Z).      (* delta_factor.squared(a,b,c) *)
(* the number it stands for *)
Fixpoint number (e : expr) : Q :=
  match e with
  | EInt n => inject_Z n
  | EPQ p q => (inject_Z p / inject_Z q)%Q
  | EMul a b => (number a * number b)%Q
  | EMulInt a n => (number a * inject_Z n)%Q
  | EDiv a b => (number a / number b)%Q
  | EFact n => inject_Z (zfact n)
  | EDelta a b c => delta2 a b c
  end.
(* positive integers, non-negative factorial arguments, triangle inequalities *)
Fixpoint proper (e : expr) : Prop :=
  match e with
  | EInt n => 0 < n
  | EPQ p q => 0 < p /\ 0 < q
  | EMul a b | EDiv a b => proper a /\ proper b
  | EMulInt a n => proper a /\ 0 < n
  | EFact n => 0 <= n
  | EDelta a b c => 0 <= a + b - c /\ 0 <= a - b + c /\ 0 <= - a + b + c
  end.
(* the code run for it; the state holds the prime table, the factorials and the delta factors computed so far *)
Definition on_primes {A} (f : primes -> res (A * primes)) (d : dfact) : res (A * dfact) :=
  do ' (a, s) <- f (fprimes (dff d)); Ok (a, DF (dmap d) (FF (fvec (dff d)) s)).
Fixpoint eval (e : expr) (d : dfact) : res (factors * dfact) :=
  match e with
  | EInt n => on_primes (frational_of n) d
  | EPQ p q => on_primes (frational_pq p q) d
  | EMul a b => do ' (f, d) <- eval a d; do ' (g, d) <- eval b d; Ok (frmul f g, d)
  | EMulInt a n => do ' (f, d) <- eval a d; on_primes (frmul_int f n) d
  | EDiv a b => do ' (f, d) <- eval a d; do ' (g, d) <- eval b d; Ok (frdiv f g, d)
  | EFact n => do ' (f, t) <- ffactorial n (dff d); Ok (f, DF (dmap d) t)
  | EDelta a b c => delta_squared (a, b, c) d
  end.
Fixpoint eval_all (l : list expr) (d : dfact) : res (list factors * dfact) :=
  match l with
  | [] => Ok ([], d)
  | e :: l => do ' (f, d) <- eval e d; do ' (fs, d) <- eval_all l d; Ok (f :: fs, d)
  end.
(* a fresh process: an empty prime table, the factorial of 0 and no delta factors *)
Definition dfact_new : res dfact := do t <- ffact_new no_primes; Ok (DF [] t).

(* ---- calls to factorial, one after the other ---- *)
Fixpoint factorials (l : list Z) (t : list Z) : res (list Z * list Z) :=
  match l with
  | [] => Ok ([], t)
  | n :: l => do ' (x, t) <- factorial n t; do ' (xs, t) <- factorials l t; Ok (x :: xs, t)
  end.

(* ---- modular arithmetic ---- *)
Inductive cexpr := CVal (v : Z) | CAdd (a b : cexpr) | CSub (a b : cexpr) | CNeg (a : cexpr).
Fixpoint integer (e : cexpr) : Z :=
  match e with CVal v => v | CAdd a b => integer a + integer b | CSub a b => integer a - integer b | CNeg a => - integer a end.
Fixpoint ceval (n : Z) (e : cexpr) : res cyclic :=
  match e with
  | CVal v => cyc n v
  | CAdd a b => do x <- ceval n a; do y <- ceval n b; cyc_add x y
  | CSub a b => do x <- ceval n a; do y <- ceval n b; cyc_sub x y
  | CNeg a => do x <- ceval n a; cyc_neg x
  end.

(* ---- determinants ---- *)
(* all arrangements of a list *)
Fixpoint inserts {A} (a : A) (l : list A) : list (list A) :=
  (a :: l) :: match l with [] => [] | b :: l => map (cons b) (inserts a l) end.
Fixpoint arrangements {A} (l : list A) : list (list A) :=
  match l with [] => [[]] | a :: l => flat_map (inserts a) (arrangements l) end.
(* the number of pairs out of order *)
Fixpoint inversions (s : list Z) : Z :=
  match s with [] => 0 | a :: s => Z.of_nat (length (filter (fun b => b <? a) s)) + inversions s end.
Definition sign {R : cring} (s : list Z) (x : R) : R := if Z.even (inversions s) then x else copp x.
(* the product of the entries (i, s_i) *)
Fixpoint diag {R : cring} (a : Z -> Z -> R) (i : Z) (s : list Z) : R :=
  match s with [] => c1 | j :: s => cmul (a i j) (diag a (i + 1) s) end.
(* the sum over all permutations of n of the signed products *)
Definition leibniz {R : cring} (n : Z) (a : Z -> Z -> R) : R := rsum (map (fun s => sign s (diag a 0 s)) (arrangements (zrange n))).
(* the matrix shown by the view x in memory m *)
Definition entries {V} (m : mem V) (x : view) (a : Z -> Z -> V) (n c : Z) : Prop :=
  vdims x = [n; c] /\ length (vstr x) = 2%nat /\
  forall i j, 0 <= i < n -> 0 <= j < c -> exists p, vaddr x [i; j] = Ok p /\ m (fst p) (snd p) = Some (a i j).

(* ---- rows ---- *)
Fixpoint lex_lt (x y : list Z) : Prop :=
  match x, y with
  | a :: x, b :: y => a < b \/ (a = b /\ lex_lt x y)
  | [], _ :: _ => True
  | _, [] => False
  end.
Definition row_of (a : Z -> Z -> Z) (c i : Z) : list Z := map (a i) (zrange c).
