(* Spec_ArgCache.v -- what a cache keyed by an object and an argument answers: each object has, for its lifetime, one value per
   argument, the first that was computed or entered. *)
From Verif Require Import Base Model_ArgCache.
Local Open Scope Z_scope.

Section Spec.
Context {V : Type}.
(* the lifetime at each address, the number of lifetimes, the value of each (lifetime, argument), the computations *)
Record facts := Facts { fat : Z -> option Z; fborn : Z; fval : Z -> Z -> option V; fcalls : list (Z * Z) }.
Definition no_facts : facts := Facts (fun _ => None) 0 (fun _ _ => None) [].
Definition set1 (x : Z) (v : option Z) (f : Z -> option Z) : Z -> option Z := fun y => if y =? x then v else f y.
Definition set2 (i a : Z) (v : V) (f : Z -> Z -> option V) : Z -> Z -> option V := fun j b => if (j =? i) && (b =? a) then Some v else f j b.
(* None: an object made where one lives, or a dead one used *)
Definition fact (make : Z -> Z -> V) (e : aevent V) (k : facts) : option (option V * facts) :=
  match e with
  | ENew x => match fat k x with None => Some (None, Facts (set1 x (Some (fborn k)) (fat k)) (fborn k + 1) (fval k) (fcalls k)) | Some _ => None end
  | EDel x => match fat k x with Some _ => Some (None, Facts (set1 x None (fat k)) (fborn k) (fval k) (fcalls k)) | None => None end
  | ELook x a => match fat k x with
      | Some i => match fval k i a with
          | Some v => Some (Some v, k)
          | None => Some (Some (make i a), Facts (fat k) (fborn k) (set2 i a (make i a) (fval k)) (fcalls k ++ [(i, a)]))
          end
      | None => None end
  | EEnter x a v => match fat k x with
      | Some i => match fval k i a with
          | Some u => Some (Some u, k)
          | None => Some (Some v, Facts (fat k) (fborn k) (set2 i a v (fval k)) (fcalls k))
          end
      | None => None end
  end.
Fixpoint facts_of (make : Z -> Z -> V) (h : list (aevent V)) (k : facts) : option (list (option V) * facts) :=
  match h with
  | [] => Some ([], k)
  | e :: h' => match fact make e k with
      | Some (v, k1) => match facts_of make h' k1 with Some (vs, k2) => Some (v :: vs, k2) | None => None end
      | None => None end
  end.
End Spec.
Arguments facts : clear implicits.
