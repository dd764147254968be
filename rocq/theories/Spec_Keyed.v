(* Spec_Keyed.v -- what a program using owning containers sees: per container, the keys and objects put in, in order. *)
From Verif Require Import Base Model_Keyed.
Local Open Scope Z_scope.

Section SpecKeyed.
Variable O : Type.
Variable okey : O -> Z.
Variable odef : O.

(* the last object entered under k *)
Definition last_under (k : Z) (log : list (Z * O)) : option O :=
  fold_left (fun r p => if fst p =? k then Some (snd p) else r) log None.
(* per container: what was entered, and the keys that were looked up without being there *)
Definition iview : Type := (list (Z * O) * list Z)%type.
Definition istate := Z -> option iview.
Definition supd {V} (f : Z -> option V) (a : Z) (v : option V) : Z -> option V := fun b => if b =? a then v else f b.
Definition rekey (log : list (Z * O)) : list (Z * O) := map (fun p => (okey (snd p), snd p)) log.
(* the effect of an operation that the program may perform: None if it names a container that does not exist, or reuses a name *)
Definition ispec (op : iop O) (A : istate) : option istate :=
  match op with
  | INew _ c => match A c with None => Some (supd A c (Some ([], []))) | _ => None end
  | IInsert _ c k o => match A c with Some (l, pr) => Some (supd A c (Some (l ++ [(k, o)], pr))) | None => None end
  | IPush _ c o => match A c with Some (l, pr) => Some (supd A c (Some (l ++ [(okey o, o)], pr))) | None => None end
  | ILook _ c k => match A c with Some (l, pr) => Some (supd A c (Some (l, match last_under k l with Some _ => pr | None => k :: pr end))) | None => None end
  | ICopy _ c d => match A c, A d with None, Some (l, _) => Some (supd A c (Some (rekey l, []))) | _, _ => None end
  | IMove _ c d => match A c, A d with None, Some y => Some (supd (supd A c (Some y)) d (Some ([], []))) | _, _ => None end
  | IAssign _ c d => match A c, A d with Some _, Some (l, _) => Some (supd A c (Some (if c =? d then [] else rekey l, []))) | _, _ => None end
  | IMoveAssign _ c d => match A c, A d with Some _, Some y => Some (supd (supd A c (Some y)) d (Some ([], []))) | _, _ => None end
  | IWipe _ c | IClear _ c => match A c with Some _ => Some (supd A c (Some ([], []))) | None => None end
  | IDestroy _ c => match A c with Some _ => Some (supd A c None) | None => None end
  end.
Fixpoint ispecs (ops : list (iop O)) (A : istate) : option istate := match ops with [] => Some A | op :: r => match ispec op A with Some B => ispecs r B | None => None end end.
Definition no_clear (op : iop O) : Prop := match op with IClear _ _ => False | _ => True end.

(* associative containers: the object under each key *)
Definition astate := Z -> option (Z -> option O).
Inductive outcome := Done (A : astate) | Stops | Misuse.
Definition aspec (op : aop O) (A : astate) : outcome :=
  match op with
  | ANew _ c => match A c with None => Done (supd A c (Some (fun _ => None))) | _ => Misuse end
  | AInsert _ c k o => match A c with Some f => match f k with None => Done (supd A c (Some (supd f k (Some o)))) | Some _ => Stops end | None => Misuse end
  | AAt _ c k => match A c with Some f => match f k with None => Done (supd A c (Some (supd f k (Some odef)))) | Some _ => Done A end | None => Misuse end
  | ASet _ c k o => match A c with Some f => Done (supd A c (Some (supd f k (Some o)))) | None => Misuse end
  | AGet _ c k => match A c with Some f => match f k with None => Stops | Some _ => Done A end | None => Misuse end
  | ACopy _ c d => match A c, A d with None, Some f => Done (supd A c (Some f)) | _, _ => Misuse end
  | AMove _ c d => match A c, A d with None, Some f => Done (supd (supd A c (Some f)) d (Some (fun _ => None))) | _, _ => Misuse end
  | ADestroy _ c => match A c with Some _ => Done (supd A c None) | None => Misuse end
  end.
Fixpoint aspecs (ops : list (aop O)) (A : astate) : outcome := match ops with [] => Done A | op :: r => match aspec op A with Done B => aspecs r B | x => x end end.

(* ownership: every live object belongs to exactly one container, once *)
Definition owns {X} (ptrs : X -> list Z) (w : world O X) (c p : Z) : Prop := exists x, cs O X w c = Some x /\ In p (ptrs x).
Definition sound {X} (ptrs : X -> list Z) (w : world O X) : Prop :=
  (forall c d p, owns ptrs w c p -> owns ptrs w d p -> c = d) /\
  (forall c x, cs O X w c = Some x -> NoDup (ptrs x)) /\
  (forall c p, owns ptrs w c p -> hp O X w p <> None).
Definition no_leak {X} (ptrs : X -> list Z) (w : world O X) : Prop := forall p, hp O X w p <> None -> exists c, owns ptrs w c p.
End SpecKeyed.
