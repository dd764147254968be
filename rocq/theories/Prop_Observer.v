(* Prop_Observer.v -- C39, C40: observers, and caches keyed by the addresses of objects. *)
From Verif Require Import Base BaseFacts Model_Observer Spec_Observer Proofs_Observer Proofs_Observer2.
From Coq Require Import Permutation.
Local Open Scope Z_scope.

(* C39 *)
(* for every history and every iteration order of the sets: the two lists agree with each other and with the
   history, only living parties are mentioned, and exactly the observers of a dying object are told, once each *)
Theorem C39_observers : forall ord h, (forall l, Permutation (ord l) l) -> all_possible h l0 ->
  exists w log, orun ord h = Ok (w, log) /\
  (forall o x, knows_target w o x <-> knows_observer w x o) /\
  (forall o x, knows_target w o x <-> In (o, x) (pairs_of (history h))) /\
  (forall o x, knows_target w o x -> In o (live_obs (history h)) /\ In x (live_obj (history h))) /\
  (forall x, objs w x <> None <-> In x (live_obj (history h))) /\ (forall o, obsv w o <> None <-> In o (live_obs (history h))) /\
  Permutation log (signals h l0).
Proof.
  intros ord h Po P. destruct (observers_ok ord h Po P) as (w & log & E & A & B & C & D & F & G). exists w, log. repeat split; try assumption.
  - intro H. apply B. now apply A.
  - intro H. apply A. now apply B.
  - now apply A.
  - now apply A.
  - apply (F o x). now apply A.
  - apply (F o x). now apply A.
  - apply C.
  - apply C.
  - apply D.
  - apply D.
Qed.
Print Assumptions C39_observers.
(* objects 1, 2 and observers 7, 8; address 1 is used twice *)
Definition ex_hist : list oevent :=
  [NewObj 1; NewObj 2; NewObs 7; NewObs 8; AddT 7 1; AddT 8 1; AddT 7 2; RemT 8 2; DelObj 1; NewObj 1; AddT 8 1; DelObs 7].
Example C39_case : all_possible ex_hist l0 /\ pairs_of (history ex_hist) = [(8, 1)] /\ signals ex_hist l0 = [(8, 1); (7, 1)] /\
  (exists w, orun (fun l => l) ex_hist = Ok (w, [(7, 1); (8, 1)]) /\ objs w 1 = Some [8] /\ objs w 2 = Some [] /\ obsv w 7 = None /\ obsv w 8 = Some [1]).
Proof.
  split; [cbn; repeat split; try tauto; intuition lia|]. split; [reflexivity|]. split; [reflexivity|]. eexists. split; [vm_compute; reflexivity|]. vm_compute. repeat split.
Qed.
(* copying an observer (its implicit copy constructor) gives an observer that its targets do not know: when the
   target dies, the copy still lists it, and destroying the copy uses the dead object *)
Theorem C39_copied_observer_refuted : exists w w' log, orun (fun l => l) [NewObj 1; NewObs 7; AddT 7 1] = Ok (w, log) /\
  (do w <- copy_obs 7 8 w; del_obj log_act (fun l => l) 1 (w, log)) = Ok (w', [(7, 1)]) /\
  objs w' 1 = None /\ obsv w' 8 = Some [1] /\ del_obs (fun l => l) 8 w' = UB.
Proof.
  eexists. eexists. eexists. split; [vm_compute; reflexivity|]. split; [vm_compute; reflexivity|]. repeat split; vm_compute; reflexivity.
Qed.
Print Assumptions C39_copied_observer_refuted.
(* attach_observer called directly: the object lists the observer but not the other way round, and the
   destructor of the object throws *)
Theorem C39_attached_observer_refuted : exists w w' log, orun (fun l => l) [NewObj 1; NewObs 7] = Ok (w, log) /\ attach 1 7 w = Ok w' /\
  knows_observer w' 1 7 /\ ~ knows_target w' 7 1 /\ del_obj log_act (fun l => l) 1 (w', log) = Throw.
Proof.
  eexists. eexists. eexists. split; [vm_compute; reflexivity|]. split; [vm_compute; reflexivity|]. split; [exists [7]; split; [reflexivity|now left]|]. split; [|reflexivity].
  intros (t & E & I). vm_compute in E. injection E as <-. destruct I.
Qed.
Print Assumptions C39_attached_observer_refuted.

(* C40 *)
(* every lookup of every history gives the object made from the objects now living at the given addresses, and
   make_obj is called at most once for every combination of lifetimes *)
Theorem C40_one : forall (V : Type) ord (make : list Z -> V) h, (forall l, Permutation (ord l) l) -> all_can (len 1) h nobody ->
  exists s, brun bank1 ord make h (start bank1 1) = Ok (answers make h nobody, s) /\ NoDup (ccalls bank1 s).
Proof. intros V ord make h Ho. now apply bank1_ok. Qed.
Print Assumptions C40_one.
Theorem C40_pair : forall (V : Type) ord (make : list Z -> V) h, (forall l, Permutation (ord l) l) -> all_can (len 2) h nobody ->
  exists s, brun bank2 ord make h (start bank2 2) = Ok (answers make h nobody, s) /\ NoDup (ccalls bank2 s).
Proof. intros V ord make h Ho. now apply bank2_ok. Qed.
Print Assumptions C40_pair.
Theorem C40_triple : forall (V : Type) ord (make : list Z -> V) h, (forall l, Permutation (ord l) l) -> all_can (len 3) h nobody ->
  exists s, brun bank3 ord make h (start bank3 3) = Ok (answers make h nobody, s) /\ NoDup (ccalls bank3 s).
Proof. intros V ord make h Ho. now apply bank3_ok. Qed.
Print Assumptions C40_triple.
Theorem C40_list : forall (V : Type) ord (make : list Z -> V) h, (forall l, Permutation (ord l) l) -> all_can (fun _ => True) h nobody ->
  exists s, brun bankl ord make h (start bankl 1) = Ok (answers make h nobody, s) /\ NoDup (ccalls bankl s).
Proof. intros V ord make h Ho. now apply bankl_ok. Qed.
Print Assumptions C40_list.
(* the key objects die and others appear at the same addresses *)
Definition ex1 : list event := [New 5; Look [5]; Look [5]; Del 5; New 5; Look [5]].
Definition ex2 : list event := [New 5; New 6; Look [5; 6]; Look [6; 5]; Look [5; 5]; Del 5; New 5; Look [5; 6]; Look [5; 5]; Look [5; 6]].
Definition ex3 : list event := [New 5; New 6; Look [5; 6; 5]; Look [6; 6; 6]; Del 5; New 5; Look [5; 6; 5]; Look [6; 6; 6]].
Definition exl : list event := [New 5; New 6; Look [5; 6; 5]; Look []; Look [6]; Del 5; New 5; Look [5; 6; 5]; Look [6]].
Ltac can_run := cbn; repeat split; try discriminate; intros x H; repeat destruct H as [H|H]; subst; try discriminate; contradiction.
Ltac run_bank := eexists; split; [vm_compute; reflexivity|vm_compute; reflexivity].
Example C40_one_case : all_can (len 1) ex1 nobody /\
  exists s, brun bank1 (fun l => l) (fun k => k) ex1 (start bank1 1) = Ok ([None; Some [0]; Some [0]; None; None; Some [1]], s) /\ ccalls bank1 s = [[0]; [1]].
Proof. split; [can_run|run_bank]. Qed.
Example C40_pair_case : all_can (len 2) ex2 nobody /\
  exists s, brun bank2 (fun l => l) (fun k => k) ex2 (start bank2 2) =
    Ok ([None; None; Some [0; 1]; Some [1; 0]; Some [0; 0]; None; None; Some [2; 1]; Some [2; 2]; Some [2; 1]], s) /\ ccalls bank2 s = [[0; 1]; [1; 0]; [0; 0]; [2; 1]; [2; 2]].
Proof. split; [can_run|run_bank]. Qed.
Example C40_triple_case : all_can (len 3) ex3 nobody /\
  exists s, brun bank3 (fun l => l) (fun k => k) ex3 (start bank3 3) =
    Ok ([None; None; Some [0; 1; 0]; Some [1; 1; 1]; None; None; Some [2; 1; 2]; Some [1; 1; 1]], s) /\ ccalls bank3 s = [[0; 1; 0]; [1; 1; 1]; [2; 1; 2]].
Proof. split; [can_run|run_bank]. Qed.
Example C40_list_case : all_can (fun _ => True) exl nobody /\
  exists s, brun bankl (fun l => l) (fun k => k) exl (start bankl 1) =
    Ok ([None; None; Some [0; 1; 0]; Some []; Some [1]; None; None; Some [2; 1; 2]; Some [1]], s) /\ ccalls bankl s = [[0; 1; 0]; []; [1]; [2; 1; 2]].
Proof. split; [can_run|run_bank]. Qed.
