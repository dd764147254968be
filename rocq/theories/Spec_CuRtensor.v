(* Spec_CuRtensor.v -- the shapes for which one launch on a device reaches every element. *)
From Verif Require Import Base Spec_Index.
Local Open Scope Z_scope.

Definition rt_fits (dims : list Z) : Prop :=
  match dims with
  | [n] => 0 <= n <= 2147483647 /\ n mod 1024 = 0
  | [a; b] => 0 < a <= 2147483647 /\ 0 < b <= 2147483647 /\ (a <= 1024 \/ b <= 65535)
  | [a; b; c] => 0 < a <= 2147483647 /\ 0 < b <= 2147483647 /\ 0 < c <= 2147483647 /\ (a * b * c <= 1024 -> c <= 64) /\
      (a * b <= 1024 \/ a * c <= 1024 \/ b * c <= 1024)
  | _ => False
  end.
