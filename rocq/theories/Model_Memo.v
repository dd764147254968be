(* Model_Memo.v -- memoised values: containers/object_bank.hpp, utility/once.hpp, wrappers/cachedf.hpp.
   A generator is a function of the number of calls made so far (it need not be pure) and the key; a null
   pointer is None.  A call that throws leaves its effects, so every operation gives a result and a state. *)
From Verif Require Import Base Model_Observer.
Local Open Scope Z_scope.

Section Memo.
Context {V : Type}.
(* object_bank, object_bank.hpp:22-53.  The hash table holds pointers; bcalls lists the keys make_obj was called with. *)
Record obank := OBank { otab : Z -> option (option V); ocalls : list Z }.
Definition obank0 : obank := OBank (fun _ => None) [].
Definition deref (p : option V) : res V := match p with Some v => Ok v | None => UB end.
(* operator(), :45-51: nothing is stored if make_obj throws; the pointer is dereferenced without a check *)
Definition obank_get (gen : nat -> Z -> res (option V)) (k : Z) (s : obank) : res V * obank :=
  match otab s k with
  | Some p => (deref p, s)
  | None =>
      let calls := ocalls s ++ [k] in
      match gen (length (ocalls s)) k with
      | Ok p => (deref p, OBank (upd1 k (Some p) (otab s)) calls)
      | Throw => (Throw, OBank (otab s) calls)
      | UB => (UB, OBank (otab s) calls)
      end
  end.
(* the default constructor's make_obj, :35-36 *)
Definition obank_default : nat -> Z -> res (option V) := fun _ _ => Ok None.

(* once, once.hpp:24-59, and cachedF, cachedf.hpp:59-94 (same text): flag done and the value obj (default
   constructed, dflt, until then); ncalls counts the calls of make_obj *)
Record once_ := Once { odone : bool; oval : V; oncalls : nat }.
Definition once_get (gen : nat -> res V) (s : once_) : res V * once_ :=
  if odone s then (Ok (oval s), s) else
  match gen (oncalls s) with
  | Ok v => (Ok v, Once true v (S (oncalls s)))
  | Throw => (Throw, Once false (oval s) (S (oncalls s)))
  | UB => (UB, Once false (oval s) (S (oncalls s)))
  end.

(* oncep, once.hpp:62-90, and cachedf, cachedf.hpp:23-56: a pointer that is null until the first call *)
Record oncep_ := Oncep { pobj : option V; pcalls : nat }.
Definition oncep0 : oncep_ := Oncep None 0.
Definition oncep_get (gen : nat -> res (option V)) (s : oncep_) : res V * oncep_ :=
  match pobj s with
  | Some v => (Ok v, s)
  | None =>
      match gen (pcalls s) with
      | Ok (Some v) => (Ok v, Oncep (Some v) (S (pcalls s)))
      | Ok None => (Throw, Oncep None (S (pcalls s)))
      | Throw => (Throw, Oncep None (S (pcalls s)))
      | UB => (UB, Oncep None (S (pcalls s)))
      end
  end.
(* the constructor cachedf(std::function<OBJ()>), cachedf.hpp:42-43: the lambda captures the constructor's own
   parameter by reference; that parameter is gone when the lambda runs, so calling it is UB whatever gen is *)
Definition cachedf_of (gen : nat -> res V) : nat -> res (option V) := fun _ => UB.
End Memo.
Arguments obank : clear implicits. Arguments once_ : clear implicits. Arguments oncep_ : clear implicits.
(* a sequence of look-ups *)
Fixpoint gets {K S V} (get : K -> S -> res V * S) (ks : list K) (s : S) : list (res V) * S :=
  match ks with [] => ([], s) | k :: ks => let '(r, s) := get k s in let '(rs, s) := gets get ks s in (r :: rs, s) end.
