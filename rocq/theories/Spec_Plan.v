(* Spec_Plan.v -- words for C98 to C100. *)
From Coq Require Import Ascii Relations.
From Verif Require Import Base Model_Plan.
Import ListNotations.
Local Open Scope nat_scope.

(* s writes the labels l: a label of one character other than '(' stands for itself, any label without ')' may stand in parentheses *)
Inductive writes : str -> list str -> Prop :=
| w_nil : writes [] []
| w_char c s l : c <> "("%char -> writes s l -> writes (c :: s) ([c] :: l)
| w_paren t s l : ~ In ")"%char t -> writes s l -> writes ("("%char :: t ++ ")"%char :: s) (t :: l).
Fixpoint join (ss : list str) : str := match ss with [] => [] | [s] => s | s :: ss' => s ++ ","%char :: join ss' end.
(* an expression: tensors with the axis labels ls, separated by commas, an arrow, the labels lr of the result.  The last tensor has an axis *)
Definition written (s : str) (ls : list (list str)) (lr : list str) : Prop :=
  exists ss r, s = join ss ++ "-"%char :: ">"%char :: r /\ Forall2 writes ss ls /\ writes r lr /\
    Forall (fun a => ~ In ","%char a /\ ~ In "-"%char a) ss /\ (ss = [] \/ last ss [] <> []).
(* the tensors t labels an axis of, in order; 0 is the result *)
Definition uses (ll : list (list str)) (t : str) : list nat -> Prop :=
  fun o => NoDup o /\ (forall a b i j, nth_error o a = Some i -> nth_error o b = Some j -> a < b -> i < j) /\ forall j, In j o <-> exists l, nth_error ll j = Some l /\ In t l.
(* a label of two characters the first of which is c *)
Definition conv_label (t : str) : Prop := exists d, t = ["c"%char; d].
(* strictly increasing *)
Definition increasing (v : list nat) : Prop := forall a b i j, nth_error v a = Some i -> nth_error v b = Some j -> a < b -> i < j.

(* ---- what a node computes ---- *)
(* indices i free in a node: of an argument, its own; of a contraction, those of its children but the one summed *)
Inductive free : cnode -> nat -> Prop :=
| f_arg id ix i : In i ix -> free (CArg id ix) i
| f_con c ch ix e n lv x i : In x ch -> free x i -> i <> c -> free (CCon c ch ix e n lv) i.
(* nodes and arguments below a node *)
Inductive below : cnode -> cnode -> Prop :=
| b_self x : below x x
| b_child y c ch ix e n lv x : In x ch -> below y x -> below y (CCon c ch ix e n lv).
Fixpoint height (x : cnode) : nat := match x with CArg _ _ => 0 | CCon _ ch _ _ _ _ => S (list_max (map height ch)) end.
Fixpoint args_of (x : cnode) : list nat := match x with CArg id _ => [id] | CCon _ ch _ _ _ _ => flat_map args_of ch end.
(* the indices summed in a node, once for each contraction *)
Fixpoint cons_of (x : cnode) : list nat := match x with CArg _ _ => [] | CCon c ch _ _ _ _ => c :: flat_map cons_of ch end.
(* the contraction of c was made at level l in one of the nodes fr *)
Definition made_at (fr : list cnode) (l c : nat) : Prop :=
  exists x y ch ix e n lv, In x fr /\ below y x /\ y = CCon c ch ix e n lv /\ height y = l.

Section Value.
Context {R : cring}.
Definition rprod (l : list R) : R := fold_right cmul c1 l.
Definition env := nat -> Z.
Definition eupd (e : env) (c : nat) (k : Z) : env := fun i => if i =? c then k else e i.
(* T id is the tensor with number id, dim c the range of index c *)
Context (dim : nat -> Z) (T : nat -> list Z -> R).
Fixpoint val (x : cnode) (e : env) : R :=
  match x with
  | CArg id ix => T id (map e ix)
  | CCon c ch _ _ _ _ => rsum (map (fun k => rprod (map (fun y => val y (eupd e c k)) ch)) (zrange (dim c)))
  end.
(* the sum over all values of the indices cs *)
Fixpoint sum_over (cs : list nat) (f : env -> R) (e : env) : R :=
  match cs with [] => f e | c :: cs' => rsum (map (fun k => sum_over cs' f (eupd e c k)) (zrange (dim c))) end.
(* the product of the tensors numbered a, a+1, .. with the indices al *)
Fixpoint product (a : nat) (al : list (list nat)) (e : env) : R :=
  match al with [] => c1 | ix :: al' => cmul (T a (map e ix)) (product (S a) al' e) end.
End Value.
(* tensors i and j (numbers in al) are linked when some index of cs occurs in both *)
Definition linked (al : list (list nat)) (cs : list nat) : nat -> nat -> Prop :=
  clos_refl_sym_trans nat (fun i j => exists c a b, In c cs /\ nth_error al i = Some a /\ nth_error al j = Some b /\ In c a /\ In c b).
(* the tree made by contracting the indices cs one after the other, starting from t; the last node made is the root *)
Fixpoint run (place : list nat -> nat) (path : list nat) (t : ctr) (cs : list nat) : ctr :=
  match cs with
  | [] => t
  | c :: cs' => let '(x, t1) := add_contraction (place (path ++ [c])) c t in
      run place (path ++ [c]) (match cs' with [] => Ctr (Some x) (frontier t1) (levels t1) | _ => t1 end) cs'
  end.
