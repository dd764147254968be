(* Spec_Gtensor.v -- vocabulary for statements about stand-alone tensors (Gtensor). *)
From Verif Require Import Base Model_Index Model_View Model_Tensor Model_Gtensor Spec_Index Spec_View Spec_Tensor.
Local Open Scope Z_scope.

(* the element of t at index ix (None: t has no array, or no such cell) *)
Definition gel {V} (h : heap V) (t : gtensor) (ix : list Z) : option V :=
  match garr t with Some _ => elem (hmem h) (gview t) ix | None => None end.
(* arrays that are not allocated have no cells, and names are not reused *)
Definition heap_ok {V} (h : heap V) : Prop :=
  NoDup (hlive h) /\ (forall b, In b (hlive h) -> 0 <= b < hnext h) /\ 0 <= hnext h /\
  (forall b a, hmem h b a <> None -> In b (hlive h)).
(* the array of t is allocated and has exactly n cells *)
Definition has_cells {V} (h : heap V) (t : gtensor) (n : Z) : Prop :=
  exists b, garr t = Some b /\ In b (hlive h) /\ forall a, hmem h b a <> None <-> 0 <= a < n.
(* t is a tensor of shape dims whose elements lie in distinct cells of its array of memsize cells *)
Definition laid {V} (h : heap V) (t : gtensor) (dims : list Z) : Prop :=
  gdims t = dims /\ gk t = Z.of_nat (length dims) /\ length (gstr t) = length dims /\ nonneg dims /\
  has_cells h t (gmemsize t) /\ distinct_cells (gview t) /\
  (forall ix, in_range ix dims -> 0 <= dot (gstr t) ix < gmemsize t).
(* t is an ordinary tensor of shape dims: its elements fill its array in row-major order *)
Definition plain {V} (h : heap V) (t : gtensor) (dims : list Z) : Prop :=
  dims <> [] /\ nonneg dims /\ gdims t = dims /\ gk t = Z.of_nat (length dims) /\
  gstr t = strides_of 1 dims /\ gasize t = prod dims /\ gmemsize t = prod dims /\ has_cells h t (prod dims).
(* t is an array of shape adims of cells of shape dims which start P cells apart *)
Definition padded {V} (h : heap V) (t : gtensor) (adims dims : list Z) (P : Z) : Prop :=
  adims <> [] /\ dims <> [] /\ nonneg adims /\ nonneg dims /\ prod dims <= P /\
  gdims t = adims ++ dims /\ gk t = Z.of_nat (length (adims ++ dims)) /\
  gstr t = strides_of P adims ++ strides_of 1 dims /\
  gasize t = prod (adims ++ dims) /\ gmemsize t = P * prod adims /\ has_cells h t (gmemsize t).
(* h' is h with one more array, that of t, which owns it; the rest is as before *)
Definition adds_array {V} (h : heap V) (t : gtensor) (h' : heap V) : Prop :=
  exists b, garr t = Some b /\ gisview t = false /\ ~ In b (hlive h) /\ hlive h' = b :: hlive h /\
            heap_ok h' /\ forall b' a, b' <> b -> hmem h' b' a = hmem h b' a.
(* the same arrays are allocated, and only elements of t at indices in I differ *)
Definition only_at {V} (h h' : heap V) (t : gtensor) (I : list Z -> Prop) : Prop :=
  hlive h' = hlive h /\ hnext h' = hnext h /\
  forall b a, (forall ix, I ix -> vaddr (gview t) ix <> Ok (b, a)) -> hmem h' b a = hmem h b a.
(* the arrays of the two tensors are different *)
Definition apart (t x : gtensor) : Prop := garr t <> garr x.

(* ---- programs over objects ---- *)
Definition names {V} (s : @gstate V) : list Z := map fst (gobj s).
Definition object {V} (s : @gstate V) (i : Z) (t : gtensor) : Prop := In (i, t) (gobj s).
(* b is the array of an object that must free it *)
Definition owns (t : gtensor) (b : Z) : Prop := garr t = Some b /\ gisview t = false.
(* every allocated array is owned by exactly one object, and every view's array is allocated *)
Definition accounted {V} (s : @gstate V) : Prop :=
  heap_ok (gheap s) /\ NoDup (names s) /\
  (forall b, In b (hlive (gheap s)) <-> exists i t, object s i t /\ owns t b) /\
  (forall i j t u b, object s i t -> object s j u -> owns t b -> owns u b -> i = j) /\
  (forall i t b, object s i t -> garr t = Some b -> In b (hlive (gheap s))).
(* every object with an array is a tensor whose array has memsize cells, at least as many as it has elements *)
Definition sized {V} (s : @gstate V) : Prop :=
  forall i t b, object s i t -> garr t = Some b -> laid (gheap s) t (gdims t) /\ 0 <= gasize t <= gmemsize t.
(* no object other than i uses the array that t owns *)
Definition unshared {V} (s : @gstate V) (i : Z) (t : gtensor) : Prop :=
  forall b j u, owns t b -> object s j u -> garr u = Some b -> j = i.
(* when a statement may be run: new names are new, the objects used exist and have an array where one is read,
   copies are of unpadded tensors, nothing is assigned to itself or copied into a view, and arrays that views
   still use are not given up *)
Definition allowed {V} (s : @gstate V) (o : @gop V) : Prop :=
  match o with
  | GNew i dims => ~ In i (names s) /\ dims <> [] /\ nonneg dims
  | GNewArray i adims dims => ~ In i (names s) /\ adims <> [] /\ dims <> [] /\ nonneg adims /\ nonneg dims
  | GCopy i j => ~ In i (names s) /\ exists x, object s j x /\ garr x <> None /\ gasize x = gmemsize x
  | GMove i j => ~ In i (names s) /\ In j (names s)
  | GAssign i j => i <> j /\ exists t x, object s i t /\ object s j x /\ gisview t = false /\ unshared s i t /\ garr x <> None
  | GMoveAssign i j => i <> j /\ In j (names s) /\ exists t, object s i t /\ unshared s i t
  | GView i j dims => ~ In i (names s) /\ dims <> [] /\ nonneg dims /\ exists x, object s j x /\ garr x <> None /\ prod dims = gasize x
  | GSet i ix v => exists t, object s i t /\ garr t <> None /\ in_range ix (gdims t)
  | GDestroy i => exists t, object s i t /\ unshared s i t
  end.
(* every statement of the program may be run when its turn comes *)
Fixpoint legal {V} (junk : V) (l : list (@gop V)) (s : @gstate V) : Prop :=
  match l with
  | [] => True
  | o :: l' => allowed s o /\ forall s', gstep junk o s = Ok s' -> legal junk l' s'
  end.
(* before any statement *)
Definition start {V} : @gstate V := GS [] (Heap (fun _ _ => None) [] 0).

(* a function applied to elements that exist *)
Definition opt1 {A B} (f : A -> B) (a : option A) : option B := match a with Some x => Some (f x) | None => None end.
Definition opt2 {A B C} (f : A -> B -> C) (a : option A) (b : option B) : option C :=
  match a, b with Some x, Some y => Some (f x y) | _, _ => None end.
Definition opt3 {A B C D} (f : A -> B -> C -> D) (a : option A) (b : option B) (c : option C) : option D :=
  match a, b, c with Some x, Some y, Some z => Some (f x y z) | _, _, _ => None end.
(* the elements at ix of a tensor of shape dims and at jx of one of shape dims' have the same place in row-major order *)
Definition same_place (ix dims jx dims' : list Z) : Prop := in_range ix dims /\ in_range jx dims' /\ flat ix dims = flat jx dims'.
(* the element, 0 if there is none *)
Definition gel0 {R : cring} (h : heap (car R)) (t : gtensor) (ix : list Z) : R := match gel h t ix with Some v => v | None => c0 end.
