(* Model_Observer.v -- utility/observable.hpp and the caches keyed by object addresses:
   containers/ptr_indexed_object_bank.hpp, ptr_pair_indexed_object_bank.hpp, ptr_triple_indexed_cache.hpp,
   plist_indexed_object_bank.hpp. *)
From Verif Require Import Base.
Local Open Scope Z_scope.

Definition upd1 {V} (k : Z) (v : V) (f : Z -> V) : Z -> V := fun k' => if k' =? k then v else f k'.
(* std::set of pointers as a list: find, insert, erase *)
Definition memb (x : Z) (l : list Z) : bool := existsb (Z.eqb x) l.
Definition sadd (x : Z) (l : list Z) : list Z := if memb x l then l else l ++ [x].
Definition sdel (x : Z) (l : list Z) : list Z := filter (fun y => negb (y =? x)) l.

(* Living observables with their set observers (observable.hpp:29-62) and living observers with their set
   targets (:67-129).  Pointers are integers; None = not alive, and using such a pointer is UB. *)
Record world := World { objs : Z -> option (list Z); obsv : Z -> option (list Z) }.
Definition w0 : world := World (fun _ => None) (fun _ => None).
(* constructors, :36-37 and :85-87.  An address in use is never handed out again: such an event is impossible. *)
Definition new_obj (x : Z) (w : world) : res world :=
  match objs w x with None => Ok (World (upd1 x (Some []) (objs w)) (obsv w)) | Some _ => UB end.
Definition new_obs (o : Z) (w : world) : res world :=
  match obsv w o with None => Ok (World (objs w) (upd1 o (Some []) (obsv w))) | Some _ => UB end.
(* attach_observer, :50-53; detach_observer, :55-59 *)
Definition attach (x o : Z) (w : world) : res world :=
  match objs w x with Some l => Ok (World (upd1 x (Some (sadd o l)) (objs w)) (obsv w)) | None => UB end.
Definition detach (x o : Z) (w : world) : res world :=
  match objs w x with Some l => Ok (World (upd1 x (Some (sdel o l)) (objs w)) (obsv w)) | None => UB end.
(* add, :104-108 (and operator(), :110-114, same text) *)
Definition add_target (o x : Z) (w : world) : res world :=
  match obsv w o with
  | None => UB
  | Some t => if memb x t then Ok w else
      do w <- attach x o w; Ok (World (objs w) (upd1 o (Some (sadd x t)) (obsv w)))
  end.
(* remove, :116-120 *)
Definition remove_target (o x : Z) (w : world) : res world :=
  match obsv w o with
  | None => UB
  | Some t => if memb x t then
      do w <- detach x o w; Ok (World (objs w) (upd1 o (Some (sdel x t)) (obsv w))) else Ok w
  end.
(* ~observer, :74-77: ord is the iteration order of a std::set of pointers *)
Definition del_obs (ord : list Z -> list Z) (o : Z) (w : world) : res world :=
  match obsv w o with
  | None => UB
  | Some t => do w <- foldM (fun x => detach x o) (ord t) w; Ok (World (objs w) (upd1 o None (obsv w)))
  end.
(* the implicit copy constructor of observer: the set is copied, nothing is attached *)
Definition copy_obs (o o' : Z) (w : world) : res world :=
  match obsv w o, obsv w o' with
  | Some t, None => Ok (World (objs w) (upd1 o' (Some t) (obsv w)))
  | _, _ => UB
  end.
Section Act.
Context {S : Type}.
(* on_deleted_action of the observers, acting on a client state *)
Variable act : Z -> Z -> S -> res S.
(* deleted_signal, :122-127 *)
Definition deleted_signal (o x : Z) (ws : world * S) : res (world * S) :=
  let '(w, s) := ws in
  match obsv w o with
  | None => UB
  | Some t => assrt (memb x t)
      (let w := World (objs w) (upd1 o (Some (sdel x t)) (obsv w)) in do s <- act o x s; Ok (w, s))
  end.
(* ~observable, :39-42 *)
Definition del_obj (ord : list Z -> list Z) (x : Z) (ws : world * S) : res (world * S) :=
  match objs (fst ws) x with
  | None => UB
  | Some l => do ' (w, s) <- foldM (fun o => deleted_signal o x) (ord l) ws; Ok (World (upd1 x None (objs w)) (obsv w), s)
  end.
End Act.

(* ---- caches.  Keys are lists of pointers; a pointer stands for an object of some type at some address.
   One bank consists of its hash table (find, insert, erase) and its look-up tables. *)
Definition keq (k k' : list Z) : bool := if list_eq_dec Z.eq_dec k k' then true else false.
Definition kupd {V} (k : list Z) (v : option V) (f : list Z -> option V) : list Z -> option V := fun k' => if keq k' k then v else f k'.
Definition kmemb (k : list Z) (l : list (list Z)) : bool := existsb (keq k) l.
Definition ksadd (k : list Z) (l : list (list Z)) : list (list Z) := if kmemb k l then l else l ++ [k].
Definition ksdel (k : list Z) (l : list (list Z)) : list (list Z) := filter (fun y => negb (keq y k)) l.
Definition olist {A} (o : option (list A)) : list A := match o with Some l => l | None => [] end.
Section Banks.
Context {V : Type}.
(* the part the four classes share: what an observer does when one of its targets dies (bact), and what
   operator() does between a failed find and insert (breg) *)
Record bank := Bank { bstate : Type; binit : bstate; btab : bstate -> list Z -> option V;
  binsert : list Z -> V -> bstate -> bstate; bact : Z -> Z -> bstate -> res bstate; breg : list Z -> world * bstate -> res (world * bstate) }.
(* on (world * state): operator()(keys), e.g. ptr_indexed_object_bank.hpp:76-83.  The result is the object,
   and whether make_obj was called. *)
Definition bcall (b : bank) (make : list Z -> V) (ks : list Z) (ws : world * bstate b) : res (V * bool * (world * bstate b)) :=
  match btab b (snd ws) ks with
  | Some v => Ok (v, false, ws)
  | None => do ' (w, s) <- breg b ks ws; let v := make ks in Ok (v, true, (w, binsert b ks v s))
  end.

(* ptr_indexed_object_bank, ptr_indexed_object_bank.hpp:26-85: observer 0 erases the key *)
Definition bank1 : bank :=
  Bank (list Z -> option V) (fun _ => None) (fun s => s) (fun ks v s => kupd ks (Some v) s)
    (fun _ x s => Ok (kupd [x] None s))
    (fun ks ws => match ks with [x] => do w <- add_target 0 x (fst ws); Ok (w, snd ws) | _ => UB end).

(* ptr_pair_indexed_object_bank, ptr_pair_indexed_object_bank.hpp:25-156: observers 0 and 1, tables lookup0 and lookup1 *)
Record st2 := St2 { tab2 : list Z -> option V; look0 : Z -> option (list Z); look1 : Z -> option (list Z) }.
(* erase0, :63-71: erase every pair (x,y), and x from lookup1[y] (which creates an absent entry) *)
Definition erase0 (x : Z) (s : st2) : st2 :=
  match look0 s x with
  | None => s
  | Some l =>
      let s := fold_left (fun s y => St2 (kupd [x; y] None (tab2 s)) (look0 s) (upd1 y (Some (sdel x (olist (look1 s y)))) (look1 s))) l s in
      St2 (tab2 s) (upd1 x None (look0 s)) (look1 s)
  end.
(* erase1, :73-81 *)
Definition erase1 (y : Z) (s : st2) : st2 :=
  match look1 s y with
  | None => s
  | Some l =>
      let s := fold_left (fun s x => St2 (kupd [x; y] None (tab2 s)) (upd1 x (Some (sdel y (olist (look0 s x)))) (look0 s)) (look1 s)) l s in
      St2 (tab2 s) (look0 s) (upd1 y None (look1 s))
  end.
(* operator(), :107-117 *)
Definition bank2 : bank :=
  Bank st2 (St2 (fun _ => None) (fun _ => None) (fun _ => None)) tab2
    (fun ks v s => St2 (kupd ks (Some v) (tab2 s)) (look0 s) (look1 s))
    (fun o x s => Ok (if o =? 0 then erase0 x s else erase1 x s))
    (fun ks ws => match ks with
       | [x; y] => do w <- add_target 0 x (fst ws); do w <- add_target 1 y w;
           let s := snd ws in
           Ok (w, St2 (tab2 s) (upd1 x (Some (sadd y (olist (look0 s x)))) (look0 s)) (upd1 y (Some (sadd x (olist (look1 s y)))) (look1 s)))
       | _ => UB end).

(* ptr_triple_indexed_cache, ptr_triple_indexed_cache.hpp:25-159: observers 0, 1, 2; each look-up table holds whole
   triples.  ptr_triple_arg_indexed_cache (:161-304) is the same with one more component that is not observed. *)
Record st3 := St3 { tab3 : list Z -> option V; lk3 : Z -> Z -> option (list (list Z)) }.
(* erase0, erase1, erase2, :67-98: d is the position; p is erased from the tables of the other positions *)
Definition unlink (d : Z) (p : list Z) (lk : Z -> Z -> option (list (list Z))) : Z -> Z -> option (list (list Z)) :=
  upd1 d (upd1 (nth (Z.to_nat d) p 0) (Some (ksdel p (olist (lk d (nth (Z.to_nat d) p 0))))) (lk d)) lk.
Definition erase3 (d x : Z) (s : st3) : st3 :=
  match lk3 s d x with
  | None => s
  | Some l =>
      let s := fold_left (fun s p => St3 (kupd p None (tab3 s))
        (fold_left (fun lk e => unlink e p lk) (filter (fun e => negb (e =? d)) [0; 1; 2]) (lk3 s))) l s in
      St3 (tab3 s) (upd1 d (upd1 x None (lk3 s d)) (lk3 s))
  end.
Definition link (d : Z) (p : list Z) (lk : Z -> Z -> option (list (list Z))) : Z -> Z -> option (list (list Z)) :=
  upd1 d (upd1 (nth (Z.to_nat d) p 0) (Some (ksadd p (olist (lk d (nth (Z.to_nat d) p 0))))) (lk d)) lk.
(* operator(), :126-139 *)
Definition bank3 : bank :=
  Bank st3 (St3 (fun _ => None) (fun _ _ => None)) tab3
    (fun ks v s => St3 (kupd ks (Some v) (tab3 s)) (lk3 s))
    (fun o x s => Ok (erase3 o x s))
    (fun ks ws => match ks with
       | [x; y; z] => do w <- add_target 0 x (fst ws); do w <- add_target 1 y w; do w <- add_target 2 z w;
           let s := snd ws in Ok (w, St3 (tab3 s) (link 2 ks (link 1 ks (link 0 ks (lk3 s)))))
       | _ => UB end).

(* plist_indexed_object_bank, plist_indexed_object_bank.hpp:44-114: observer 0, table memberships of vectors *)
Record stl := Stl { tabl : list Z -> option V; memberships : Z -> option (list (list Z)) }.
Definition bankl : bank :=
  Bank stl (Stl (fun _ => None) (fun _ => None)) tabl
    (fun ks v s => Stl (kupd ks (Some v) (tabl s)) (memberships s))
    (* erase_all_involving, :79-85 *)
    (fun _ x s => match memberships s x with
       | None => Throw
       | Some l => Ok (Stl (fold_left (fun t k => kupd k None t) l (tabl s)) (upd1 x None (memberships s))) end)
    (* operator(), :99-112 *)
    (fun ks ws => foldM (fun p ws => do w <- add_target 0 p (fst ws);
       let s := snd ws in Ok (w, Stl (tabl s) (upd1 p (Some (olist (memberships s p) ++ [ks])) (memberships s)))) ks ws).

(* ---- histories of one bank: objects are made (possibly at the address of a dead one), die, are looked up.
   cid gives the lifetime at each address, cnext counts lifetimes, ccalls lists the lifetimes make_obj was
   called with.  make takes the lifetimes of the keys: the object is computed from the key objects. *)
Inductive event := New (x : Z) | Del (x : Z) | Look (ks : list Z).
Record cst (b : bank) := Cst { cw : world; cb : bstate b; cid : Z -> Z; cnext : Z; ccalls : list (list Z) }.
(* which observers the bank has: 0, 1, ..., n-1, made by its constructor *)
Definition start (b : bank) (n : Z) : cst b :=
  Cst b (World (fun _ => None) (fun o => if (0 <=? o) && (o <? n) then Some [] else None)) (binit b) (fun _ => 0) 0 [].
Definition step (b : bank) (ord : list Z -> list Z) (make : list Z -> V) (e : event) (s : cst b) : res (option V * cst b) :=
  match e with
  | New x => do w <- new_obj x (cw b s); Ok (None, Cst b w (cb b s) (upd1 x (cnext b s) (cid b s)) (cnext b s + 1) (ccalls b s))
  | Del x => do ' (w, t) <- del_obj (bact b) ord x (cw b s, cb b s); Ok (None, Cst b w t (cid b s) (cnext b s) (ccalls b s))
  | Look ks => do ' (v, c, (w, t)) <- bcall b (fun ks => make (map (cid b s) ks)) ks (cw b s, cb b s);
      Ok (Some v, Cst b w t (cid b s) (cnext b s) (if c then ccalls b s ++ [map (cid b s) ks] else ccalls b s))
  end.
End Banks.
Arguments bank : clear implicits.
Arguments st2 : clear implicits. Arguments st3 : clear implicits. Arguments stl : clear implicits.
