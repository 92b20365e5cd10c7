(** Laws of training that hold for any kind of values. *)
From Coq Require Import Lia Permutation.
From Verif Require Import Common EvalModel EvalSpec EvalProofs EvalLaws UpdaterModel UpdaterSpec UpdaterLaws TrainModel TrainSpec TrainProofs.

(** ================= C51 ================= *)

(** One call of train, whatever happened before. Let every update be of a different variable
    and its node be computed from an operation that the error is computed from too. If the
    call returns, every variable is changed by its own node's value for the new inputs and the
    variables' values before the call - as if all updates happened at once, in whatever
    order they are -, no other leaf but the two placeholders changes, the error is not
    frozen, and the state is again one of the kind assumed. *)
Lemma C51_simultaneous_lemma : forall V compat ord top A s train_in expected error updates x y s',
  @valid_order V ord -> valid_top top -> history compat ord top s ->
  NoDup (map fst updates) -> (forall w n, In (w, n) updates -> connected s n error) ->
  net_train compat ord top A s train_in expected error updates x y = Done s' tt ->
  exists s0, history compat ord top s0 /\ fed s s0 train_in expected x y /\
    (forall w n, In (w, n) updates -> exists d old new, denotes s0 n (Some d) /\ val s0 w = Some old /\ sub_ A old d = Some new /\ val s' w = Some new) /\
    (forall v, leaf s v -> ~ In v (map fst updates) -> val s' v = val s0 v) /\
    nodes s' = nodes s /\ is_frozen s' error = false /\ history compat ord top s'.
Proof.
  intros V compat ord top A s i o e l x y s' Ho Ht H Nd Hc E.
  destruct (train_ok compat ord top Ho Ht A s i o e l x y s' H Nd Hc E) as (H' & F & s0 & H0 & Hf & N & U & D).
  exists s0. split; [exact H0|]. split; [exact Hf|]. split; [|auto]. intros w n Hi. destruct (D w n Hi) as (_ & a & b & c & X). now exists a, b, c.
Qed.

(** Refuted without the common operation: when the nodes of the updates are in no common graph
    with the error - the gradients of a * b, built on the variables alone -, freezing the error
    does not keep them. Both variables are 8 and both nodes 4; the first variable becomes 4, the
    second node is computed anew and gives 2, and the second variable becomes 6. *)
Lemma C51_unconnected_refuted_lemma : exists (A : arith nat) (s s' : estate nat),
  history (fun _ _ => true) audience least s /\ NoDup (map fst [(0, 5); (1, 6)]) /\
  (exists f, operation s 4 [0; 1] f) /\ denotes s 5 (Some 4) /\ denotes s 6 (Some 4) /\ (forall a b, sub_ A a b = Some (a - b)) /\
  net_train (fun _ _ => true) audience least A s 2 3 4 [(0, 5); (1, 6)] 1 1 = Done s' tt /\ val s 0 = Some 8 /\ val s 1 = Some 8 /\
  val s' 0 = Some 4 /\ val s' 1 = Some 6.
Proof.
  exists (mkArith nat Nat.div2 (fun x => x) (fun x => x) (fun x => x) (fun x => x) (fun x => x) (fun x y => Some (x + y)) (fun x y => Some x) (fun x y => Some (x - y))).
  set (ops := [ELeaf (Some 8); ELeaf (Some 8); ELeaf None; ELeaf None; EOp [0; 1] (fun l => match l with [a; b] => Some (a * b) | _ => None end); EOp [1] (fun1 Nat.div2); EOp [0] (fun1 Nat.div2)]).
  assert (H : exists s s', run (fun _ _ => true) audience least einit ops = Done s tt /\ (exists f, operation s 4 [0; 1] f) /\ denotes s 5 (Some 4) /\ denotes s 6 (Some 4) /\
    net_train (fun _ _ => true) audience least (mkArith nat Nat.div2 (fun x => x) (fun x => x) (fun x => x) (fun x => x) (fun x => x) (fun x y => Some (x + y)) (fun x y => Some x) (fun x y => Some (x - y))) s 2 3 4 [(0, 5); (1, 6)] 1 1 = Done s' tt /\
    val s 0 = Some 8 /\ val s 1 = Some 8 /\ val s' 0 = Some 4 /\ val s' 1 = Some 6).
  { eexists. eexists. split; [vm_compute; reflexivity|]. split; [eexists; eexists; reflexivity|].
    split; [eapply (den_op _ 5 [1] (fun1 Nat.div2) [Some 8] [8] 4); [eexists; reflexivity|constructor; [refine (den_leaf _ 1 _); reflexivity|constructor]|reflexivity|reflexivity]|].
    split; [eapply (den_op _ 6 [0] (fun1 Nat.div2) [Some 8] [8] 4); [eexists; reflexivity|constructor; [refine (den_leaf _ 0 _); reflexivity|constructor]|reflexivity|reflexivity]|].
    split; [vm_compute; reflexivity|]. repeat split. }
  destruct H as (s & s' & E & F & D5 & D6 & T & V). exists s, s'. split; [exists ops; split; [exact E|repeat constructor]|].
  split; [repeat constructor; cbn; lia|]. split; [exact F|]. split; [exact D5|]. split; [exact D6|]. split; [reflexivity|]. split; [exact T|exact V].
Qed.

(** c = a + b, error c * c, updates by c: a and b are decreased by the same value, whatever the
    order *)
Lemma C51_simultaneous_nonvacuous_lemma : forall l, l = [(0, 4); (1, 4)] \/ l = [(1, 4); (0, 4)] -> exists (A : arith nat) (s s' : estate nat),
  history (fun _ _ => true) audience least s /\ NoDup (map fst l) /\ (forall w n, In (w, n) l -> connected s n 5) /\ (forall a b, sub_ A a b = Some (a - b)) /\
  net_train (fun _ _ => true) audience least A s 2 3 5 l 1 1 = Done s' tt /\ val s 0 = Some 20 /\ val s 1 = Some 15 /\ val s' 0 = Some 3 /\ val s' 1 = Some 0.
Proof.
  intros l Hl. set (A := mkArith nat Nat.div2 (fun x => x) (fun x => x) (fun x => x) (fun x => x) (fun x => x) (fun x y => Some (x + y)) (fun x y => Some x) (fun x y => Some (x - y))). exists A.
  set (ops := [ELeaf (Some 20); ELeaf (Some 15); ELeaf (Some 2); ELeaf None; EOp [0; 1] (fun l => match l with [a; b] => Some (Nat.div2 (a + b)) | _ => None end); EOp [4; 4] (fun l => match l with [a; b] => Some (a * b) | _ => None end)]).
  assert (H : exists s s', run (fun _ _ => true) audience least einit ops = Done s tt /\ net_train (fun _ _ => true) audience least A s 2 3 5 l 1 1 = Done s' tt /\
    connected s 4 5 /\ val s 0 = Some 20 /\ val s 1 = Some 15 /\ val s' 0 = Some 3 /\ val s' 1 = Some 0).
  { eexists. destruct Hl as [-> | ->]; eexists; (split; [vm_compute; reflexivity|]); (split; [vm_compute; reflexivity|]); (split; [|repeat split]);
      (exists 4, [0; 1]; eexists; split; [eexists; reflexivity|]; split; [constructor|]; eapply up_step; [eexists; reflexivity|left; reflexivity|constructor]). }
  destruct H as (s & s' & E & T & C & V). exists s, s'. split; [exists ops; split; [exact E|repeat constructor]|].
  split; [destruct Hl as [-> | ->]; repeat constructor; cbn; lia|]. split; [|split; [reflexivity|split; [exact T|exact V]]].
  intros w n Hi. assert (n = 4) as ->; [|exact C]. destruct Hl as [-> | ->]; cbn [In] in Hi; destruct Hi as [Hi|[Hi|[]]]; congruence.
Qed.

