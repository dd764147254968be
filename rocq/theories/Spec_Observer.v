(* Spec_Observer.v -- vocabulary for statements about observers and caches keyed by objects. *)
From Verif Require Import Base Model_Observer.
Local Open Scope Z_scope.

(* ---- histories of observers and observed objects *)
Inductive oevent := NewObj (x : Z) | NewObs (o : Z) | AddT (o x : Z) | RemT (o x : Z) | DelObj (x : Z) | DelObs (o : Z).
(* who is alive and who observes whom, read off the history alone *)
Record links := Links { live_obj : list Z; live_obs : list Z; pairs_of : list (Z * Z) }.
Definition l0 : links := Links [] [] [].
Definition drop (x : Z) (l : list Z) : list Z := filter (fun y => negb (y =? x)) l.
Definition after (e : oevent) (a : links) : links :=
  match e with
  | NewObj x => Links (x :: live_obj a) (live_obs a) (pairs_of a)
  | NewObs o => Links (live_obj a) (o :: live_obs a) (pairs_of a)
  | AddT o x => Links (live_obj a) (live_obs a) ((o, x) :: pairs_of a)
  | RemT o x => Links (live_obj a) (live_obs a) (filter (fun p => negb ((fst p =? o) && (snd p =? x))) (pairs_of a))
  | DelObj x => Links (drop x (live_obj a)) (live_obs a) (filter (fun p => negb (snd p =? x)) (pairs_of a))
  | DelObs o => Links (live_obj a) (drop o (live_obs a)) (filter (fun p => negb (fst p =? o)) (pairs_of a))
  end.
(* events that can occur: only living parties are used, and only free addresses are given to new ones *)
Definition possible (e : oevent) (a : links) : Prop :=
  match e with
  | NewObj x => ~ In x (live_obj a)
  | NewObs o => ~ In o (live_obs a)
  | AddT o x | RemT o x => In o (live_obs a) /\ In x (live_obj a)
  | DelObj x => In x (live_obj a)
  | DelObs o => In o (live_obs a)
  end.
Fixpoint all_possible (h : list oevent) (a : links) : Prop :=
  match h with [] => True | e :: h' => possible e a /\ all_possible h' (after e a) end.
Definition history (h : list oevent) : links := fold_left (fun a e => after e a) h l0.
(* the model runs the history; the log records the calls of on_deleted_action *)
Definition log_act (o x : Z) (s : list (Z * Z)) : res (list (Z * Z)) := Ok (s ++ [(o, x)]).
Definition ostep (ord : list Z -> list Z) (e : oevent) (ws : world * list (Z * Z)) : res (world * list (Z * Z)) :=
  let '(w, s) := ws in
  match e with
  | NewObj x => do w <- new_obj x w; Ok (w, s)
  | NewObs o => do w <- new_obs o w; Ok (w, s)
  | AddT o x => do w <- add_target o x w; Ok (w, s)
  | RemT o x => do w <- remove_target o x w; Ok (w, s)
  | DelObj x => del_obj log_act ord x ws
  | DelObs o => do w <- del_obs ord o w; Ok (w, s)
  end.
Definition orun (ord : list Z -> list Z) (h : list oevent) : res (world * list (Z * Z)) := foldM (ostep ord) h (w0, []).
(* o is in the list of x; x is in the list of o *)
Definition knows_observer (w : world) (x o : Z) : Prop := exists l, objs w x = Some l /\ In o l.
Definition knows_target (w : world) (o x : Z) : Prop := exists t, obsv w o = Some t /\ In x t.
(* the notifications expected: when x dies, one to every observer it has *)
Fixpoint signals (h : list oevent) (a : links) : list (Z * Z) :=
  match h with
  | [] => []
  | e :: h' => match e with
      | DelObj x => map (fun o => (o, x)) (nodup Z.eq_dec (map fst (filter (fun p => snd p =? x) (pairs_of a))))
      | _ => [] end ++ signals h' (after e a)
  end.

(* ---- histories of a cache *)
(* the lifetime (number of the creation event) currently at each address, None if nothing lives there *)
Definition life := (Z -> option Z)%type.
Record lives := Lives { at_ : life; born : Z }.
Definition grow (e : event) (l : lives) : lives :=
  match e with
  | New x => Lives (upd1 x (Some (born l)) (at_ l)) (born l + 1)
  | Del x => Lives (upd1 x None (at_ l)) (born l)
  | Look _ => l
  end.
Definition can (n : list Z -> Prop) (e : event) (l : lives) : Prop :=
  match e with New x => at_ l x = None | Del x => at_ l x <> None | Look ks => n ks /\ forall x, In x ks -> at_ l x <> None end.
Fixpoint all_can (n : list Z -> Prop) (h : list event) (l : lives) : Prop :=
  match h with [] => True | e :: h' => can n e l /\ all_can n h' (grow e l) end.
Definition nobody : lives := Lives (fun _ => None) 0.
(* the lifetimes of a list of living objects *)
Definition lifetimes (l : lives) (ks : list Z) : list Z := map (fun x => match at_ l x with Some i => i | None => -1 end) ks.
(* the answers expected: the object computed from the objects now living at the addresses *)
Fixpoint answers {V} (make : list Z -> V) (h : list event) (l : lives) : list (option V) :=
  match h with
  | [] => []
  | e :: h' => match e with Look ks => Some (make (lifetimes l ks)) | _ => None end :: answers make h' (grow e l)
  end.
(* running a bank and collecting its answers *)
Fixpoint brun {V} (b : bank V) (ord : list Z -> list Z) (make : list Z -> V) (h : list event) (s : cst b) : res (list (option V) * cst b) :=
  match h with
  | [] => Ok ([], s)
  | e :: h' => do ' (v, s) <- step b ord make e s; do ' (vs, s) <- brun b ord make h' s; Ok (v :: vs, s)
  end.
