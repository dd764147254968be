(* Spec_JSON.v -- what the JSON-like store is asked to keep (C70). *)
From Coq Require Import ZArith List Bool Ascii Lia.
Import ListNotations.
From Verif Require Import Base Model_JSON.
Open Scope Z_scope.

(* what a caller can assign to an entry *)
Inductive jvalue := VStr (s : text) | VInt (x : Z) | VVec (x : list Z) | VVecVec (x : list (list Z)).
Definition text_of (v : jvalue) : text :=
  match v with VStr s => set_str s | VInt x => set_int x | VVec x => set_vec x | VVecVec x => set_vec_vec x end.
(* an object filled by assignments obj[k]=v, the first one last *)
Fixpoint filled (l : list (text * jvalue)) : json :=
  match l with [] => JSON [] [] true | (k, v) :: l' => assign k (text_of v) (filled l') end.
(* the latest value assigned to a key *)
Fixpoint latest (k : text) (l : list (text * jvalue)) : option jvalue :=
  match l with [] => None | (k', v) :: l' => if list_eq_dec ascii_dec k k' then Some v else latest k l' end.
(* texts the printed form can carry: keys have no blank, '=' or '}', and do not begin with ',' or a carriage return; strings
   have no blank, quotation mark or '}' *)
Definition good_key (k : text) : Prop :=
  (forall c, In c k -> key_end c = false /\ c <> "}"%char) /\ match k with c :: _ => c <> ","%char /\ c <> cr | [] => True end.
Definition good_value (v : jvalue) : Prop :=
  match v with VStr s => forall c, In c s -> ws c = false /\ c <> quo /\ c <> "}"%char | _ => True end.
