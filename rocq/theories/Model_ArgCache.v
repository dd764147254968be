(* Model_ArgCache.v -- containers/ptr_arg_indexed_cache.hpp and containers/ptr_arg_indexed_object_bank.hpp: objects filed under the
   address of a key object and an argument.  Addresses and arguments are integers; observers as in Model_Observer.  The cache has
   the single observer 0. *)
From Verif Require Import Base Model_Observer.
Local Open Scope Z_scope.

Section ArgCache.
Context {V : Type}.
(* the table and lookup0 -- containers/ptr_arg_indexed_cache.hpp:28, :41; ptr_arg_indexed_object_bank.hpp:26, :40 *)
Record acache := AC { atab : Z -> Z -> option V; alook : Z -> option (list Z) }.
Definition acache0 : acache := AC (fun _ _ => None) (fun _ => None).
Definition aput (x a : Z) (v : option V) (t : Z -> Z -> option V) : Z -> Z -> option V := fun y b => if (y =? x) && (b =? a) then v else t y b.
(* erase0 -- containers/ptr_arg_indexed_cache.hpp:66-70; ptr_arg_indexed_object_bank.hpp:65-68, where (keep) the entry of lookup0 stays.
   lookup0[x] creates an absent entry. *)
Definition a_erase (keep : bool) (_ x : Z) (s : acache) : res acache :=
  let l := olist (alook s x) in
  Ok (AC (fold_left (fun t a => aput x a None t) l (atab s)) (upd1 x (if keep then Some l else None) (alook s))).
(* the lines before insert -- containers/ptr_arg_indexed_cache.hpp:80-81, :101-102; ptr_arg_indexed_object_bank.hpp:78-79 *)
Definition a_register (x a : Z) (ws : world * acache) : res (world * acache) :=
  do w <- add_target 0 x (fst ws);
  let s := snd ws in Ok (w, AC (atab s) (upd1 x (Some (sadd a (olist (alook s x)))) (alook s))).
(* insert of an unordered_map: an entry that is there stays; the object now filed *)
Definition a_ins (x a : Z) (v : V) (s : acache) : V * acache :=
  match atab s x a with Some u => (u, s) | None => (v, AC (aput x a (Some v) (atab s)) (alook s)) end.
(* operator() -- containers/ptr_arg_indexed_cache.hpp:76-84; ptr_arg_indexed_object_bank.hpp:74-82; the bool says whether make_obj ran *)
Definition a_call (make : Z -> V) (x a : Z) (ws : world * acache) : res (V * bool * (world * acache)) :=
  match atab (snd ws) x a with
  | Some v => Ok (v, false, ws)
  | None => do ' (w, s) <- a_register x a ws; let ' (v, s) := a_ins x a (make a) s in Ok (v, true, (w, s))
  end.
(* insert(key,arg,val) -- containers/ptr_arg_indexed_cache.hpp:98-105 *)
Definition a_enter (x a : Z) (v : V) (ws : world * acache) : res (V * (world * acache)) :=
  do ' (w, s) <- a_register x a ws; let ' (u, s) := a_ins x a v s in Ok (u, (w, s)).
(* contains -- containers/ptr_arg_indexed_cache.hpp:94-96 *)
Definition a_contains (x a : Z) (s : acache) : bool := match atab s x a with Some _ => true | None => false end.

(* histories: key objects are made, perhaps where a dead one was, and die; entries are looked up and entered.  iid is the lifetime at
   each address, inext the number of lifetimes, icalls the (lifetime, argument) make_obj ran with.  make gets both: it may look at
   the key object and at the argument. *)
Inductive aevent := ENew (x : Z) | EDel (x : Z) | ELook (x a : Z) | EEnter (x a : Z) (v : V).
Record acst := ACst { iw : world; ic : acache; iid : Z -> Z; inext : Z; icalls : list (Z * Z) }.
Definition acst0 : acst := ACst (World (fun _ => None) (fun o => if o =? 0 then Some [] else None)) acache0 (fun _ => 0) 0 [].
Definition aev (keep : bool) (ord : list Z -> list Z) (make : Z -> Z -> V) (e : aevent) (s : acst) : res (option V * acst) :=
  match e with
  | ENew x => do w <- new_obj x (iw s); Ok (None, ACst w (ic s) (upd1 x (inext s) (iid s)) (inext s + 1) (icalls s))
  | EDel x => do ' (w, c) <- del_obj (a_erase keep) ord x (iw s, ic s); Ok (None, ACst w c (iid s) (inext s) (icalls s))
  | ELook x a => do ' (v, b, (w, c)) <- a_call (make (iid s x)) x a (iw s, ic s);
      Ok (Some v, ACst w c (iid s) (inext s) (if b then icalls s ++ [(iid s x, a)] else icalls s))
  | EEnter x a v => do ' (u, (w, c)) <- a_enter x a v (iw s, ic s); Ok (Some u, ACst w c (iid s) (inext s) (icalls s))
  end.
Fixpoint aevs (keep : bool) (ord : list Z -> list Z) (make : Z -> Z -> V) (h : list aevent) (s : acst) : res (list (option V) * acst) :=
  match h with
  | [] => Ok ([], s)
  | e :: h' => do ' (v, s) <- aev keep ord make e s; do ' (vs, s) <- aevs keep ord make h' s; Ok (v :: vs, s)
  end.
End ArgCache.
Arguments acache : clear implicits. Arguments aevent : clear implicits. Arguments acst : clear implicits.
