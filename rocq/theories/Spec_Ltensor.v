(* Spec_Ltensor.v -- vocabulary for statements about tensors with batch and grid dimensions. *)
From Verif Require Import Base Model_Index Model_View Model_Ltensor Spec_Index Spec_View.
Local Open Scope Z_scope.

(* the list of zero or one entries *)
Definition olist (B : option Z) : list Z := match B with Some b => [b] | None => [] end.
(* x has B batches (None: no batch dimension), grid shape g and cell shape c *)
Definition lshape (x : ltensor) (B : option Z) (g c : list Z) : Prop :=
  vwf (lview x) /\ vdims (lview x) = olist B ++ g ++ c /\
  batched (llab x) = match B with Some _ => true | None => false end /\ narray (llab x) = Z.of_nat (length g).
(* the strides of the batch and grid dimensions bg of x are those of a row-major array whose elements are s apart *)
Definition evenly_spaced (x : ltensor) (bg : list Z) (s : Z) : Prop := firstn (length bg) (vstr (lview x)) = strides_of s bg.
