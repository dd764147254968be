(* Spec_Graph.v -- what graphs, spanning trees and induced copies are supposed to be. *)
From Verif Require Import Base Map Model_Containers Model_Tree Model_Graph.
Local Open Scope Z_scope.

(* the last value given to the unordered pair {i,j} *)
Definition hits (i j : Z) (e : Z * Z * Z) : bool :=
  let '(a, b, _) := e in ((a =? i) && (b =? j)) || ((a =? j) && (b =? i)).
Definition last_pair (i j : Z) (es : list (Z * Z * Z)) : option Z :=
  fold_left (fun acc e => if hits i j e then Some (snd e) else acc) es None.
(* the graph after a sequence of insertions *)
Definition inserts (n : Z) (es : list (Z * Z * Z)) : graph := fold_left (fun g e => gset (fst (fst e)) (snd (fst e)) (snd e) g) es (gnew n).

(* well formed tables: a key occurs once in its table.  The entry of row i at j. *)
Definition tables (m : mom) : Prop := NoDup (map fst m) /\ forall i r, In (i, r) m -> NoDup (map fst r).
Definition entry (i j v : Z) (m : mom) : Prop := exists r, In (i, r) m /\ In (j, v) r.
(* the same tables walked in another order, perhaps with some empty rows more or less *)
Definition same_tables (m m' : mom) : Prop := tables m /\ tables m' /\ forall i j v, entry i j v m <-> entry i j v m'.

(* a graph as the class maintains it *)
Record good (g : graph) : Prop := Good {
  good_tables : tables (gd g);
  good_sym : forall i j v, entry i j v (gd g) -> entry j i v (gd g);
  good_range : forall i j v, entry i j v (gd g) -> 0 <= i < gn g /\ 0 <= j < gn g }.
Definition edge (g : graph) (i j : Z) : Prop := exists v, entry i j v (gd g).
Definition nz_edge (g : graph) (i j : Z) : Prop := exists v, v <> 0 /\ entry i j v (gd g).
Definition self_loops (g : graph) : Z := Z.of_nat (length (filter (fun c => fst (fst c) =? snd (fst c)) (mom_calls (gd g)))).
Inductive reach (g : graph) (r : Z) : Z -> Prop :=
| reach_root : reach g r r
| reach_step u v : reach g r u -> nz_edge g u v -> reach g r v.

(* the parent-child pairs of a tree *)
Fixpoint links (t : tree Z) (l : Z) : list (Z * Z) := let 'Tree ks := t in flat_map (fun kt => (l, fst kt) :: links (snd kt) (fst kt)) ks.

(* the weight of a pair: the stored value, 0 when there is none *)
Definition weight (g : graph) (i j w : Z) : Prop := entry i j w (gd g) \/ (w = 0 /\ ~ edge g i j).
(* f carries a copy of H in G: injective, into G, acceptable labels and degrees, equal weights on every two distinct vertices *)
Record copy (G H : graph) (f : Z -> Z) : Prop := Copy {
  copy_in : forall v, 0 <= v < gn H -> 0 <= f v < gn G;
  copy_inj : forall u v, 0 <= u < gn H -> 0 <= v < gn H -> f u = f v -> u = v;
  copy_lab : forall v lg lh, 0 <= v < gn H -> glab G = Some lg -> glab H = Some lh -> lg (f v) = lh v;
  copy_deg : forall v d, 0 <= v < gn H -> gdeg H = Some d -> 0 <= d v -> exists r, NoDup r /\ (forall x, In x r <-> edge G (f v) x) /\ Z.of_nat (length r) = d v;
  copy_w : forall u v w, 0 <= u < gn H -> 0 <= v < gn H -> u <> v -> (weight H u v w <-> weight G (f u) (f v) w) }.
