(* Model_Keyed.v -- containers that own objects and find them by key: indexed_map, indexed_mapB and associative_container.
   Objects live on a heap of addresses; a deleted object has no value, and reading or deleting it again is UB.  Containers are
   named by integers, so that one can be assigned to itself.  Keys are integers with their order: they stand for any KEY with a
   strict total order.  O is OBJ, okey its key() and odef the object made by OBJ(). *)
From Verif Require Import Base.
Local Open Scope Z_scope.

(* std::map: the pairs in the order of their keys *)
Fixpoint mfind {V} (k : Z) (m : list (Z * V)) : option V := match m with [] => None | (a, v) :: m' => if k =? a then Some v else mfind k m' end.
Fixpoint mput {V} (k : Z) (v : V) (m : list (Z * V)) : list (Z * V) :=
  match m with
  | [] => [(k, v)]
  | (a, u) :: m' => if k <? a then (k, v) :: m else if k =? a then (k, v) :: m' else (a, u) :: mput k v m'
  end.

Section Keyed.
Variable O : Type.
Variable okey : O -> Z.
Variable odef : O.

Record world (X : Type) := W { hp : Z -> option O; nx : Z; cs : Z -> option X }.
Arguments W {X}. Arguments hp {X}. Arguments nx {X}. Arguments cs {X}.
Definition put {V} (f : Z -> option V) (a : Z) (v : option V) : Z -> option V := fun b => if b =? a then v else f b.
Definition deref {X} (w : world X) (p : Z) : res O := match hp w p with Some o => Ok o | None => UB end.
(* new OBJ(..) *)
Definition make {X} (o : O) (w : world X) : Z * world X := (nx w, W (put (hp w) (nx w) (Some o)) (nx w + 1) (cs w)).
(* delete p; of a null pointer it does nothing *)
Definition del {X} (p : Z) (w : world X) : res (world X) := do _ <- deref w p; Ok (W (put (hp w) p None) (nx w) (cs w)).
Definition set_c {X} (c : Z) (x : option X) (w : world X) : world X := W (hp w) (nx w) (put (cs w) c x).
(* the object named c must exist; a new one must have a new name *)
Definition the {X} (c : Z) (w : world X) : res X := match cs w c with Some x => Ok x | None => UB end.
Definition unused {X} (c : Z) (w : world X) : res unit := match cs w c with Some _ => UB | None => Ok tt end.

(* ---- indexed_map and indexed_mapB: v and _map (a null pointer is None), containers/indexed_map.hpp:33-34, :109-110 *)
Record imap := IM { iv : list Z; im : list (Z * option Z) }.
Definition iempty : imap := IM [] [].
(* insert -- containers/indexed_map.hpp:67-70, :169-172 *)
Definition i_insert (k p : Z) (x : imap) : imap := IM (iv x ++ [p]) (mput k (Some p) (im x)).
(* push_back -- containers/indexed_map.hpp:174-177 *)
Definition i_push (p : Z) (x : imap) (w : world imap) : res imap := do o <- deref w p; Ok (IM (iv x ++ [p]) (mput (okey o) (Some p) (im x))).
(* operator[](i) -- containers/indexed_map.hpp:59-61, :161-163 *)
Definition i_at (i : Z) (x : imap) : res Z := zget (iv x) i.
(* operator[](key) -- containers/indexed_map.hpp:63-65, :165-167: _map is mutable and [] of a map inserts a null pointer *)
Definition i_look (k : Z) (x : imap) : option Z * imap := match mfind k (im x) with Some q => (q, x) | None => (None, IM (iv x) (mput k None (im x))) end.
(* exists -- containers/indexed_map.hpp:72-74, :179-181 *)
Definition i_exists (k : Z) (x : imap) : bool := match mfind k (im x) with Some _ => true | None => false end.
(* size -- containers/indexed_map.hpp:55-57, :157-159 *)
Definition i_size (x : imap) : Z := Z.of_nat (length (iv x)).

Inductive iop :=
| INew (c : Z)                 (* indexed_mapB(), containers/indexed_map.hpp:117 *)
| IInsert (c k : Z) (o : O)    (* c.insert(k,new OBJ(o)) *)
| IPush (c : Z) (o : O)        (* c.push_back(new OBJ(o)) *)
| ILook (c k : Z)              (* c[k] *)
| ICopy (c d : Z)              (* indexed_mapB c(d), containers/indexed_map.hpp:123-127 *)
| IMove (c d : Z)              (* indexed_mapB c(std::move(d)), containers/indexed_map.hpp:129-134 *)
| IAssign (c d : Z)            (* c=d, containers/indexed_map.hpp:136-142 *)
| IMoveAssign (c d : Z)        (* c=std::move(d), containers/indexed_map.hpp:144-151 *)
| IWipe (c : Z)                (* wipe, containers/indexed_map.hpp:89-94, :196-201 *)
| IClear (c : Z)               (* clear, containers/indexed_map.hpp:84-87, :191-194: the objects are not deleted *)
| IDestroy (c : Z).            (* the destructor, containers/indexed_map.hpp:36-39, :112-115 *)

(* for(auto p:x.v) push_back(new OBJ( *p)) -- containers/indexed_map.hpp:124-126, :138-140 *)
Definition i_copy_into (c : Z) (ps : list Z) (w : world imap) : res (world imap) :=
  foldM (fun p w => do o <- deref w p; let ' (q, w) := make o w in do x <- the c w; do x <- i_push q x w; Ok (set_c c (Some x) w)) ps w.
Definition i_wipe (c : Z) (w : world imap) : res (world imap) :=
  do x <- the c w; do w <- foldM del (iv x) w; Ok (set_c c (Some iempty) w).
Definition istep (op : iop) (w : world imap) : res (world imap) :=
  match op with
  | INew c => do _ <- unused c w; Ok (set_c c (Some iempty) w)
  | IInsert c k o => do x <- the c w; let ' (p, w) := make o w in Ok (set_c c (Some (i_insert k p x)) w)
  | IPush c o => do x <- the c w; let ' (p, w) := make o w in do x <- i_push p x w; Ok (set_c c (Some x) w)
  | ILook c k => do x <- the c w; Ok (set_c c (Some (snd (i_look k x))) w)
  | ICopy c d => do _ <- unused c w; do y <- the d w; i_copy_into c (iv y) (set_c c (Some iempty) w)
  | IMove c d => do _ <- unused c w; do y <- the d w; Ok (set_c d (Some iempty) (set_c c (Some y) w))
  | IAssign c d => do w <- i_wipe c w; do y <- the d w; i_copy_into c (iv y) w
  | IMoveAssign c d => do w <- i_wipe c w; do y <- the d w; Ok (set_c d (Some iempty) (set_c c (Some y) w))
  | IWipe c => i_wipe c w
  | IClear c => do _ <- the c w; Ok (set_c c (Some iempty) w)
  | IDestroy c => do x <- the c w; do w <- foldM del (iv x) w; Ok (set_c c None w)
  end.
Definition irun (ops : list iop) (w : world imap) : res (world imap) := foldM istep ops w.
(* indexed_map::operator=(indexed_map&&) -- containers/indexed_map.hpp:45-50: the function does not return a value, which is UB
   whatever it did before *)
Definition imA_move_assign (c d : Z) (w : world imap) : res (world imap) :=
  do _ <- the c w; do y <- the d w; let w := set_c d (Some iempty) (set_c c (Some y) w) in UB.

(* ---- associative_container: _map, containers/associative_container.hpp:183.  operator= (:206-218) and clear (:282-286) do not
   compile when used (delete _map.second) and are left out. *)
Definition amap := list (Z * Z).
(* exists -- containers/associative_container.hpp:266-268 *)
Definition a_exists (k : Z) (x : amap) : bool := match mfind k x with Some _ => true | None => false end.
Inductive aop :=
| ANew (c : Z)                 (* associative_container(), :190 *)
| AInsert (c k : Z) (o : O)    (* c.insert(k,o), any of the three, :251-264 *)
| AAt (c k : Z)                (* c[k] of a non-const container, :233-236, or c.pointer_to(k), :228-231 *)
| ASet (c k : Z) (o : O)       (* c[k]=o *)
| AGet (c k : Z)               (* c[k] of a const container, :238-241 *)
| ACopy (c d : Z)              (* associative_container c(d), :196-199 *)
| AMove (c d : Z)              (* associative_container c(std::move(d)), :201-204 *)
| ADestroy (c : Z).            (* the destructor, :185-188 *)
(* insert -- containers/associative_container.hpp:256-259: the assertion is taken to stop the call *)
Definition a_insert (c k : Z) (o : O) (w : world amap) : res (world amap) :=
  do x <- the c w; assrt (negb (a_exists k x)) (let ' (p, w) := make o w in Ok (set_c c (Some (mput k p x)) w)).
(* pointer_to and operator[] -- containers/associative_container.hpp:228-236 *)
Definition a_at (c k : Z) (w : world amap) : res (Z * world amap) :=
  do x <- the c w;
  do w <- if negb (a_exists k x) then a_insert c k odef w else Ok w;
  do x <- the c w;
  match mfind k x with Some p => Ok (p, w) | None => UB end.
(* operator[] const -- containers/associative_container.hpp:238-241 *)
Definition a_get (c k : Z) (w : world amap) : res O :=
  do x <- the c w; assrt (a_exists k x) (match mfind k x with Some p => deref w p | None => UB end).
(* first -- containers/associative_container.hpp:243-249 *)
Definition a_first (c : Z) (w : world amap) : res O := do x <- the c w; match x with [] => UB | (_, p) :: _ => deref w p end.
(* for(auto& o: c) -- containers/associative_container.hpp:270-276 and :37-39; for(auto p: c.keyval()) -- :278-280 and :114-116 *)
Definition a_values (c : Z) (w : world amap) : res (list (Z * O)) :=
  do x <- the c w; foldM (fun p l => do o <- deref w (snd p); Ok (l ++ [(fst p, o)])) x [].
Definition astep (op : aop) (w : world amap) : res (world amap) :=
  match op with
  | ANew c => do _ <- unused c w; Ok (set_c c (Some []) w)
  | AInsert c k o => a_insert c k o w
  | AAt c k => do ' (_, w) <- a_at c k w; Ok w
  | ASet c k o => do ' (p, w) <- a_at c k w; do _ <- deref w p; Ok (W (put (hp w) p (Some o)) (nx w) (cs w))
  | AGet c k => do _ <- a_get c k w; Ok w
  | ACopy c d => do _ <- unused c w; do y <- the d w;
      foldM (fun p w => do o <- deref w (snd p); let ' (q, w) := make o w in do x <- the c w; Ok (set_c c (Some (mput (fst p) q x)) w)) y (set_c c (Some []) w)
  | AMove c d => do _ <- unused c w; do y <- the d w; Ok (set_c d (Some []) (set_c c (Some y) w))
  | ADestroy c => do x <- the c w; do w <- foldM (fun p w => del (snd p) w) x w; Ok (set_c c None w)
  end.
Definition arun (ops : list aop) (w : world amap) : res (world amap) := foldM astep ops w.
(* size -- containers/associative_container.hpp:224-226 *)
Definition a_size (x : amap) : Z := Z.of_nat (length x).
Definition w0 {X} : world X := W (fun _ => None) 0 (fun _ => None).
End Keyed.
