(* Base.v -- shared vocabulary of the model: outcomes, loops, rings, memory.
   Models no function of /repo by itself; the per-subsystem files cite their sources. *)
From Coq Require Export List ZArith Lia Bool Permutation Ring.
From Coq Require Export ZifyBool ZifyNat.
Export ListNotations.

(* Outcome of a C++ call: normal return, a thrown exception (CNINE_ASSRT and CNINE_THROW,
   include/Cnine_base.hpp:49-57), or undefined behaviour (out-of-bounds access, use of a dead
   object, division by zero, ...).  UB is never identified with a normal value. *)
Inductive res (A : Type) : Type :=
| Ok (a : A)
| Throw
| UB.
Arguments Ok {A} a.
Arguments Throw {A}.
Arguments UB {A}.

Definition bind {A B} (r : res A) (f : A -> res B) : res B :=
  match r with Ok a => f a | Throw => Throw | UB => UB end.
Notation "'do' x <- r ; k" := (bind r (fun x => k))
  (at level 200, x name, r at level 100, k at level 200).
Notation "'do' ' p <- r ; k" := (bind r (fun x => let p := x in k))
  (at level 200, p pattern, r at level 100, k at level 200).

(* CNINE_ASSRT(c); k   -- include/Cnine_base.hpp:49-50 *)
Definition assrt {A} (c : bool) (k : res A) : res A := if c then k else Throw.

Definition rmap {A B} (f : A -> B) (r : res A) : res B :=
  match r with Ok a => Ok (f a) | Throw => Throw | UB => UB end.

(* Read v[i] of a std::vector: out of range is UB. *)
Definition vget {A} (l : list A) (i : nat) : res A :=
  match nth_error l i with Some a => Ok a | None => UB end.
Definition zget {A} (l : list A) (i : Z) : res A :=
  if (i <? 0)%Z then UB else vget l (Z.to_nat i).

(* Sequential loops: run f over a list of iterations, threading a state. *)
Fixpoint foldM {S A} (f : A -> S -> res S) (l : list A) (s : S) : res S :=
  match l with
  | [] => Ok s
  | a :: l' => do s' <- f a s; foldM f l' s'
  end.

(* 0,1,...,n-1 as machine integers; for(int i=0; i<n; i++) runs over zrange n. *)
Definition zrange (n : Z) : list Z := map Z.of_nat (seq 0 (Z.to_nat n)).
Global Arguments zrange : simpl never.
Definition forZ {S} (n : Z) (f : Z -> S -> res S) (s : S) : res S := foldM f (zrange n) s.

(* Commutative rings: the abstract element type. *)
Record cring := CRing {
  car :> Type;
  c0 : car; c1 : car;
  cadd : car -> car -> car; cmul : car -> car -> car;
  csub : car -> car -> car; copp : car -> car;
  cth : ring_theory c0 c1 cadd cmul csub copp eq }.
Arguments c0 {_}. Arguments c1 {_}. Arguments cadd {_}. Arguments cmul {_}.
Arguments csub {_}. Arguments copp {_}.
Definition ZRing : cring := CRing Z 0%Z 1%Z Z.add Z.mul Z.sub Z.opp Zth.

(* Memory: cells addressed by (block, offset); None = not allocated.
   A block stands for one MemBlob (include/MemBlob.hpp), an offset for an element position. *)
Definition mem (V : Type) := Z -> Z -> option V.
Definition upd {V} (m : mem V) (b a : Z) (v : V) : mem V :=
  fun b' a' => if ((b' =? b) && (a' =? a))%Z then Some v else m b' a'.
Definition load {V} (m : mem V) (b a : Z) : res V :=
  match m b a with Some v => Ok v | None => UB end.
Definition store {V} (m : mem V) (b a : Z) (v : V) : res (mem V) :=
  match m b a with Some _ => Ok (upd m b a v) | None => UB end.

(* Sum of a list in a ring (specification vocabulary). *)
Definition rsum {R : cring} (l : list R) : R := fold_right cadd c0 l.
Global Arguments rsum : simpl never.
