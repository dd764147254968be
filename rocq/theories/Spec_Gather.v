(* Spec_Gather.v -- vocabulary for statements about gather maps. *)
From Verif Require Import Base Model_Index Model_View Model_Tensor Model_Containers Model_Gather Spec_Index Spec_View Spec_Tensor.
Local Open Scope Z_scope.

(* what the accessors of a list table show: qs lists (head, list) for every row *)
Definition shows (p : apool) (qs : list (Z * list Z)) : Prop :=
  ap_size p = Z.of_nat (length qs) /\
  forall i h l, 0 <= i < Z.of_nat (length qs) -> nth (Z.to_nat i) qs (0, []) = (h, l) ->
    hl_head p i = Ok h /\ hl_size_of p i = Ok (Z.of_nat (length l)) /\
    forall j, 0 <= j < Z.of_nat (length l) -> hl_get p i j = Ok (nth (Z.to_nat j) l 0).
(* the entries (target,source) of rows (target,[source;...]) *)
Definition pairs (qs : list (Z * list Z)) : list (Z * Z) := flat_map (fun q => map (pair (fst q)) (snd q)) qs.
(* the entries of a map: those of its fixed-width parts (rows target::sources) and of its table *)
Definition map_entries (g : gmap) (es : list (Z * Z)) : Prop :=
  exists fk qs, gfixed g = map (map (fun q => fst q :: snd q)) fk /\ shows (garr g) qs /\ es = pairs (concat fk ++ qs).
(* no column factors *)
Definition one_col (g : gmap) : Prop := goc g = 1 /\ gic g = 1 /\ gocn g = 1 /\ gicn g = 1.
(* all entries within no targets and ni sources *)
Definition within (no ni : Z) (es : list (Z * Z)) : Prop := forall e, In e es -> 0 <= fst e < no /\ 0 <= snd e < ni.

Section M.
Context {R : cring}.
(* v is an N x K matrix whose elements in m are X *)
Definition mat (m : mem (car R)) (v : view) (N K : Z) (X : Z -> Z -> R) : Prop :=
  vdims v = [N; K] /\ length (vstr v) = 2%nat /\ forall i k, 0 <= i < N -> 0 <= k < K -> elem m v [i; k] = Some (X i k).
(* the sum of the rows of X listed for target i *)
Definition gathered (es : list (Z * Z)) (X : Z -> Z -> R) (i k : Z) : R :=
  rsum (map (fun e => X (snd e) k) (filter (fun e => fst e =? i) es)).
(* inner product of two N x K matrices *)
Definition inner (N K : Z) (X Y : Z -> Z -> R) : R :=
  rsum (map (fun i => rsum (map (fun k => cmul (X i k) (Y i k)) (zrange K))) (zrange N)).
End M.
(* an N x K matrix read as (c*N) x (K/c): row i is piece i mod c of row i/c *)
Definition in_pieces {A} (c K : Z) (X : Z -> Z -> A) (i k : Z) : A := X (i / c) (i mod c * (K / c) + k).
(* the rows of v follow each other without a gap *)
Definition rows_adjacent (v : view) : Prop := exists N K s, vdims v = [N; K] /\ vstr v = [K * s; s].

(* ---- tensor programs *)
Section P.
Context {R : cring}.
(* dims of variable v of program P, with the last one multiplied by nc *)
Definition var_rows (P : tprog) (v : Z) : Z := nth 0 (nth (Z.to_nat v) (pvars P) []) 0.
Definition var_cols (P : tprog) (v : Z) : Z := nth 1 (nth (Z.to_nat v) (pvars P) []) 0.
Definition is_var (P : tprog) (v : Z) : Prop := 0 <= v < Z.of_nat (length (pvars P)).
(* a program over matrix variables whose instructions gather from one variable into a different one of the
   same width, with maps that have no column factors and are not graded and have their entries in range *)
Definition prog_ok (P : tprog) : Prop :=
  (forall d, In d (pvars P) -> exists n k, d = [n; k] /\ 0 <= n /\ 0 < k) /\
  is_var P (pinput P) /\ is_var P (poutput P) /\ pinput P <> poutput P /\
  forall i, In i (pinstrs P) -> is_var P (iout i) /\ is_var P (iin i) /\ iout i <> iin i /\ var_cols P (iout i) = var_cols P (iin i) /\
    one_col (imap i) /\ gfixed (imap i) = [] /\
    exists es, map_entries (imap i) es /\ within (var_rows P (iout i)) (var_rows P (iin i)) es.
(* storage for a run: fresh blocks for the variables, apart from the blocks of the two tensors *)
Definition storage_ok (P : tprog) (fresh : list Z) (out inp : view) : Prop :=
  length fresh = length (pvars P) /\ NoDup fresh /\ ~ In (vblk out) fresh /\ ~ In (vblk inp) fresh /\
  distinct_cells out /\ distinct_cells inp /\ disjoint_views out inp.
End P.

(* maps made by the public operations: construction, push_back, inv, sort and grade *)
Inductive made : gmap -> Prop :=
| made_new no ni : made (gm_new no ni)
| made_lists l oc ic ocn icn g : gm_of_lists l oc ic ocn icn = Ok g -> made g
| made_matrix ho ps ni no g : (forall m, Permutation (ho m) m) -> gm_of_matrix ho ps ni no = Ok g -> made g
| made_push t v g c g' : made g -> gm_push t v (GObj g c) = Ok g' -> made (gm g')
| made_inv g c g' o : made g -> gm_inv (GObj g c) = Ok (g', o) -> c = None -> made g'
| made_sort g g' : made g -> gm_sort g = Ok g' -> made g'
| made_grade ms g g' : made g -> gm_grade ms g = Ok g' -> made g'.

(* ---- packs and slices *)
Definition shift (oo io : Z) (e : Z * Z) : Z * Z := (oo + fst e, io + snd e).
(* the stacked entries: map j acts on rows off_in j.. and off_out j.. where the offsets are running totals *)
Fixpoint stacked (oo io : Z) (gs : list gmap) (ess : list (list (Z * Z))) : list (Z * Z) :=
  match gs, ess with
  | g :: gs', es :: ess' => map (shift oo io) es ++ stacked (oo + gout g) (io + gin g) gs' ess'
  | _, _ => []
  end.

(* the index ix with a inserted at position d, and a list without its entry d *)
Definition ins {A} (d : nat) (a : A) (l : list A) : list A := firstn d l ++ a :: skipn d l.
Definition rm {A} (d : nat) (l : list A) : list A := firstn d l ++ skipn (S d) l.
Section Sl.
Context {R : cring}.
(* gathering slices along axis o of r and axis n of x: the other axes agree, the entries are in range *)
Definition slices_pre (m : mem (car R)) (r x : view) (o n : nat) (es : list (Z * Z)) : Prop :=
  vwf r /\ vwf x /\ (o < length (vdims r))%nat /\ (n < length (vdims x))%nat /\ rm o (vdims r) = rm n (vdims x) /\
  distinct_cells r /\ readable m r /\ readable m x /\ disjoint_views r x /\
  Forall (fun e => 0 <= fst e < nth o (vdims r) 0 /\ 0 <= snd e < nth n (vdims x) 0) es.
(* slice i of r got the sum of the listed slices of x *)
Definition slices_post (m m' : mem (car R)) (r x : view) (o n : nat) (es : list (Z * Z)) : Prop :=
  (forall i ix, 0 <= i < nth o (vdims r) 0 -> in_range ix (rm o (vdims r)) ->
     elem m' r (ins o i ix) = Some (cadd (elem0 m r (ins o i ix)) (rsum (map (fun e => elem0 m x (ins n (snd e) ix)) (filter (fun e => fst e =? i) es))))) /\
  untouched m m' r.
End Sl.

(* ---- weighted maps: the table holds source and weight alternately; qs lists (target,[(source,weight);...]) *)
Definition wshows (p : apool) (qs : list (Z * list (Z * Z))) : Prop :=
  shows p (map (fun q => (fst q, flat_map (fun p => [fst p; snd p]) (snd q))) qs).
(* the entries (target,(source,weight)) *)
Definition wpairs (qs : list (Z * list (Z * Z))) : list (Z * (Z * Z)) := flat_map (fun q => map (pair (fst q)) (snd q)) qs.
Section WM.
Context {R : cring} (fl : Z -> R).
Definition wgathered (es : list (Z * (Z * Z))) (X : Z -> Z -> R) (i k : Z) : R :=
  rsum (map (fun e => cmul (fl (snd (snd e))) (X (fst (snd e)) k)) (filter (fun e => fst e =? i) es)).
End WM.
