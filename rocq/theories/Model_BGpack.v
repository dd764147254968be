(* Model_BGpack.v -- tensors/BGtensorPack.hpp: batched and gridded tensors filed under keys.  Keys are integers; the parts are BGtensors
   in main memory, so a shared pointer to a part is the part itself (a part is a handle on memory: no function here changes the
   handle).  Gradients, devices and printing are left out, and so are batch(), transp(), add_prod, add_div and add_mprod, which do
   not compile (:238, :379, :326, :342, :358). *)
From Verif Require Import Base Model_Index Model_View Model_Tensor Model_Ops Model_BG Model_BGprod.
Local Open Scope Z_scope.

(* _nbatch, _gdims and the map tensors, its entries in the order of iteration (ascending keys) -- tensors/BGtensorPack.hpp:32-36 *)
Record pack := Pack { pb : Z; pg : list Z; parts : list (Z * bg) }.
(* find, emplace (an entry that is there stays) and erase of std::map *)
Fixpoint pfind (k : Z) (l : list (Z * bg)) : option bg :=
  match l with [] => None | (j, x) :: l => if j =? k then Some x else pfind k l end.
Fixpoint pput (k : Z) (x : bg) (l : list (Z * bg)) : list (Z * bg) :=
  match l with
  | [] => [(k, x)]
  | (j, y) :: l' => if k <? j then (k, x) :: l else if j =? k then l else (j, y) :: pput k x l'
  end.
Definition pdel (k : Z) (l : list (Z * bg)) : list (Z * bg) := filter (fun p => negb (fst p =? k)) l.
(* BGtensorPack(nbatch,gdims) -- tensors/BGtensorPack.hpp:47-50 *)
Definition p_new (b : Z) (g : list Z) : pack := Pack b g [].
(* size() -- tensors/BGtensorPack.hpp:165-167 *)
Definition psize (p : pack) : Z := Z.of_nat (length (parts p)).
(* operator[] -- tensors/BGtensorPack.hpp:169-173 *)
Definition p_get (k : Z) (p : pack) : res bg := match pfind k (parts p) with Some x => Ok x | None => Throw end.
(* insert -- tensors/BGtensorPack.hpp:175-185 *)
Definition p_insert (k : Z) (x : bg) (p : pack) : res pack :=
  do b <- getb x; do g <- gdims x;
  let p := if psize p =? 0 then Pack b g (parts p) else p in
  assrt (b =? pb p) (assrt (shape_eqb g (pg p)) (Ok (Pack (pb p) (pg p) (pput k x (parts p))))).
(* remove -- tensors/BGtensorPack.hpp:187-189 *)
Definition p_remove (k : Z) (p : pack) : pack := Pack (pb p) (pg p) (pdel k (parts p)).
(* for_each -- tensors/BGtensorPack.hpp:191-194: the calls of lambda in order *)
Definition p_visits (p : pack) : list (Z * bg) := parts p.
(* a history of insertions and removals *)
Inductive pop := Insert (k : Z) (x : bg) | Remove (k : Z).
Definition p_op (o : pop) (p : pack) : res pack := match o with Insert k x => p_insert k x p | Remove k => Ok (p_remove k p) end.
Definition p_run (h : list pop) (p : pack) : res pack := foldM p_op h p.
(* copy constructor -- tensors/BGtensorPack.hpp:62-68: the parts are shared *)
Definition p_share (p : pack) : pack := Pack (pb p) (pg p) (parts p).
(* reset_vars -- tensors/BGtensorPack.hpp:99-110 *)
Definition p_reset (l : list (Z * bg)) : res pack :=
  match l with [] => Ok (Pack 1 [] []) | (_, x) :: _ => do b <- getb x; do g <- gdims x; Ok (Pack b g l) end.
(* cell(ix) -- tensors/BGtensorPack.hpp:272-278.  Entries are emplaced in ascending order of the keys, each after the others *)
Fixpoint on_parts (f : bg -> res bg) (l : list (Z * bg)) : res (list (Z * bg)) :=
  match l with [] => Ok [] | (k, x) :: l => do y <- f x; do r <- on_parts f l; Ok ((k, y) :: r) end.
Definition p_cell (ix : list Z) (p : pack) : res pack :=
  assrt (length ix =? length (pg p))%nat (do l <- on_parts (fun x => bg_cell x ix) (parts p); Ok (Pack (pb p) [] l)).

Section Ring.
Context {R : cring}.
Notation memR := (mem (car R)).
(* BGtensor::operator= -- tensors/BGtensor.hpp:138-142 *)
Definition bg_assign (r x : bg) (m : memR) : res memR := assrt (ng r =? ng x) (tv_assign (bv r) (bv x) m).
(* BGtensor(ng,TENSOR) -- tensors/BGtensor.hpp:92-95 *)
Definition bg_like (n : Z) (vm : view * memR) : res (bg * memR) :=
  assrt (n <=? ndims (fst vm) - 1) (Ok (BG (fst vm) n, snd vm)).
(* BGtensor::copy() -- tensors/BGtensor.hpp:144-146; operator*(c) -- tensors/BGtensor_products.hpp:18-21 *)
Definition bg_copy (b : Z) (x : bg) (m : memR) : res (bg * memR) := do vm <- tv_copy c0 b (bv x) m; bg_like (ng x) vm.
Definition bg_scale (c : R) (b : Z) (x : bg) (m : memR) : res (bg * memR) := do vm <- op_times b (bv x) c m; bg_like (ng x) vm.
(* one new part after the other, in the blocks nb, nb+1, ...; emplaced in ascending order of the keys *)
Fixpoint new_parts (f : Z -> bg -> memR -> res (bg * memR)) (nb : Z) (l : list (Z * bg)) (m : memR) : res (list (Z * bg) * memR) :=
  match l with
  | [] => Ok ([], m)
  | (k, x) :: l => do ' (y, m) <- f nb x m; do ' (r, m) <- new_parts f (nb + 1) l m; Ok ((k, y) :: r, m)
  end.
(* copy() -- tensors/BGtensorPack.hpp:86-91; make_shared<PART>(part) makes a second handle on the part's memory *)
Definition p_copy (nb : Z) (p : pack) (m : memR) : res (pack * memR) :=
  do ' (l, m) <- new_parts bg_copy nb (parts p) m; Ok (Pack (pb p) (pg p) l, m).
(* operator= -- tensors/BGtensorPack.hpp:77-84: x.tensors[key] for a key that x does not have is a null pointer *)
Definition p_assign (p x : pack) (m : memR) : res memR :=
  assrt (pb p =? pb x) (assrt (shape_eqb (pg p) (pg x))
    (foldM (fun e m => match pfind (fst e) (parts x) with Some y => bg_assign (snd e) y m | None => UB end) (parts p) m)).
(* add -- tensors/BGtensorPack.hpp:305-309 *)
Definition p_add (p x : pack) (m : memR) : res memR :=
  assrt (psize x =? psize p) (foldM (fun e m => do y <- p_get (fst e) x; tv_add (bv (snd e)) (bv y) m) (parts p) m).
(* subtract -- tensors/BGtensorPack.hpp:311-315: the loop runs over the parts of x *)
Definition p_subtract (p x : pack) (m : memR) : res memR :=
  assrt (psize x =? psize p) (foldM (fun e m => do y <- p_get (fst e) x; tv_sub (bv (snd e)) (bv y) m) (parts x) m).
(* operator+, operator- and operator*(c) -- tensors/BGtensorPack.hpp:284-303 *)
Definition p_plus (nb : Z) (p y : pack) (m : memR) : res (pack * memR) :=
  do ' (r, m) <- p_copy nb p m; do m <- p_add r y m; Ok (r, m).
Definition p_minus (nb : Z) (p y : pack) (m : memR) : res (pack * memR) :=
  do ' (r, m) <- p_copy nb p m; do m <- p_subtract r y m; Ok (r, m).
Definition p_times (nb : Z) (p : pack) (c : R) (m : memR) : res (pack * memR) :=
  do ' (l, m) <- new_parts (bg_scale c) nb (parts p) m; do r <- p_reset l; Ok (r, m).
End Ring.
