(* Spec_PoolMem.v -- what programs over pools of integer arrays mean when every pool is a value. *)
From Verif Require Import Base Model_PoolMem.
Local Open Scope Z_scope.

(* a name is out of scope, or holds a pool: None once its contents were moved away, otherwise its rows *)
Definition penv := Z -> option (option (list (list Z))).
Definition no_pools : penv := fun _ => None.
Definition names (k : Z) (v : option (option (list (list Z)))) (e : penv) : penv := fun j => if j =? k then v else e j.
(* the list with its n-th entry replaced *)
Definition repl {A} (n : Z) (x : A) (l : list A) : list A := firstn (Z.to_nat n) l ++ x :: skipn (S (Z.to_nat n)) l.
Definition row_of (L : list (list Z)) (i : Z) : list Z := nth (Z.to_nat i) L [].
Definition change (i j v : Z) (L : list (list Z)) : list (list Z) := repl i (repl j v (row_of L i)) L.
Definition zl {A} (l : list A) : Z := Z.of_nat (length l).
Definition within (i j : Z) (L : list (list Z)) : bool := (0 <=? i) && (i <? zl L) && (0 <=? j) && (j <? zl (row_of L i)).

(* what a statement does to the values; None when it is outside the domain: views, a pool assigned to itself,
   reading a pool whose contents were moved away, positions that do not exist *)
Definition pmeans (c : pcmd) (e : penv) : option penv :=
  let fresh k v := match e k with None => Some (names k v e) | Some _ => None end in
  match c with
  | PNew k => fresh k (Some (Some []))
  | PGrow k n => match e k with Some (Some L) => Some e | _ => None end
  | PPushTo k v => match e k with Some (Some L) => Some (names k (Some (Some (L ++ [v]))) e) | _ => None end
  | PSet k i j v => match e k with Some (Some L) => if within i j L then Some (names k (Some (Some (change i j v L))) e) else None | _ => None end
  | PCopyTo k j => match e j with Some (Some L) => fresh k (Some (Some L)) | _ => None end
  | PAssign k j => match e k, e j with Some _, Some (Some L) => if k =? j then None else Some (names k (Some (Some L)) e) | _, _ => None end
  | PMoveTo k j => match e k, e j with None, Some (Some L) => Some (names j (Some None) (names k (Some (Some L)) e)) | _, _ => None end
  | PMoveAssign k j => match e k, e j with Some _, Some (Some L) => if k =? j then None else Some (names j (Some None) (names k (Some (Some L)) e)) | _, _ => None end
  | PView _ _ => None
  | PDelete k => match e k with Some _ => Some (names k None e) | None => None end
  end.
Fixpoint pmeans_all (cs : list pcmd) (e : penv) : option penv :=
  match cs with [] => Some e | c :: cs => match pmeans c e with Some e => pmeans_all cs e | None => None end end.

(* the pool named k can be read, and holds the rows L *)
Definition reads (s : pst) (k : Z) (L : list (list Z)) : Prop :=
  psize k s = Ok (zl L) /\
  (forall i, 0 <= i < zl L -> prow k i s = Ok (row_of L i)) /\
  (forall i j, 0 <= i < zl L -> 0 <= j < zl (row_of L i) -> pentry k i j s = Ok (nth (Z.to_nat j) (row_of L i) 0)).
(* the array a is allocated *)
Definition allocated (s : pst) (a : Z) : Prop := parrs (pmemory s) a <> None.
(* the pool named k points at the array a *)
Definition points (s : pst) (k a : Z) : Prop := exists o, pobjs s k = Some o /\ parr o = Some a.
(* every allocated array belongs to one pool in scope, and pools in scope are those of the environment *)
Definition tidy (s : pst) (e : penv) : Prop :=
  (forall k, pobjs s k = None <-> e k = None) /\
  (forall a, allocated s a -> exists k, points s k a /\ forall j, points s j a -> j = k) /\
  (forall k a, points s k a -> allocated s a).

(* writes through a view (true) or through the pool it looks at (false) *)
Definition wcmds (v k : Z) (ws : list (bool * (Z * Z * Z))) : list pcmd :=
  map (fun w => let '(b, (i, j, x)) := w in PSet (if b : bool then v else k) i j x) ws.
Definition wrote (ws : list (bool * (Z * Z * Z))) (L : list (list Z)) : list (list Z) :=
  fold_left (fun L w => let '(_, (i, j, x)) := w in change i j x L) ws L.
Fixpoint in_place (ws : list (bool * (Z * Z * Z))) (L : list (list Z)) : Prop :=
  match ws with [] => True | (_, (i, j, x)) :: ws => within i j L = true /\ in_place ws (change i j x L) end.

(* a table that starts with the number of rows, the position of each row and the position after the last row *)
Definition encodes (R : list (option Z)) (L : list (list Z)) : Prop :=
  zl R = zl L + 2 + zl (concat L) /\ nth 0 R None = Some (zl L) /\
  forall i, 0 <= i < zl L -> exists a b, nth (Z.to_nat (i + 1)) R None = Some a /\ nth (Z.to_nat (i + 2)) R None = Some b /\
    0 <= a /\ a <= b <= zl R /\ firstn (Z.to_nat (b - a)) (skipn (Z.to_nat a) R) = map Some (row_of L i).
