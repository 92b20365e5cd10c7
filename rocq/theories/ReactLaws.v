(** C27, C28: the observer graph over all histories. *)
From Coq Require Import Permutation.
From Verif Require Import Common ReactModel ReactSpec ReactProofs ReactOps.

Lemma step_wf ord h c : (forall l, Permutation (ord l) l) -> WF h -> legal h c -> exists h', step ord h c = Ok h' /\ WF h'.
Proof.
  intros Hord W L. pose proof (nlive_len h) as Hn. assert (Hn' : nlive h <= S (length h)) by lia. destruct c; cbn [step].
  - destruct (construct_ok h k deps W L) as [h' [E [W' _]]]. eauto.
  - destruct (assign_ok ord Hord h v s (S (length h)) W Hn' L) as [h' [E [W' _]]]. eauto.
  - destruct (clear_ok ord Hord h v (S (length h)) W L Hn') as [h' [E [W' _]]]. eauto.
  - destruct (Nat.eqb_spec o other); [eauto|]. destruct (copy_ok ord Hord h o other (S (length h)) W n L Hn') as [h' [E [W' _]]]. eauto.
  - destruct (Nat.eqb_spec o other); [eauto|]. destruct L as [[A B] [C D]]. destruct (move_ok ord Hord h o other (S (length h)) W n A C B D Hn') as [h' [E [W' _]]]. eauto.
  - destruct (move_new_ok ord Hord h other (S (length h)) W L Hn' ltac:(lia)) as [h' [E [W' _]]]. eauto.
  - destruct (delete_wf ord Hord h x (S (length h)) W L Hn') as [h' [D [E [W' _]]]]. eauto.
Qed.

Lemma reach_wf ord h : (forall l, Permutation (ord l) l) -> reach ord h -> WF h.
Proof.
  intros Hord H. induction H as [|h c h' R W L E].
  - assert (G : forall x, get [] x = nobody) by (intros [|]; reflexivity). split.
    + constructor; unfold dep, link; intros; rewrite ?G in *; cbn in *; try tauto; try lia.
      * split; [destruct i; discriminate|tauto].
      * left. intros [|] s; discriminate.
      * destruct i; discriminate.
      * destruct H.
    + intros x. rewrite G. now right.
  - destruct (step_wf ord h c Hord W L) as [h2 [E2 W2]]. congruence.
Qed.

(** No operation of any history throws, aborts or touches a destroyed object. *)
Lemma C27_histories_run_lemma : forall ord h c, (forall l, Permutation (ord l) l) -> reach ord h -> legal h c -> exists h', step ord h c = Ok h'.
Proof.
  intros ord h c Hord R L. destruct (step_wf ord h c Hord (reach_wf ord h Hord R) L) as [h' [E _]]. eauto.
Qed.

(** After any history the audience of every subject and the dependencies of every observer
    mirror each other, and neither mentions a destroyed object. *)
Lemma C27_links_mirror_lemma : forall ord h, (forall l, Permutation (ord l) l) -> reach ord h -> mirrored h /\ no_dangling h.
Proof.
  intros ord h Hord R. destruct (reach_wf ord h Hord R) as [I W]. split; [|split].
  - intros o i s. apply (i_mirror h none I). intros [].
  - intros o i s G. apply (i_mirror h none I) in G; [|intros []]. now apply (i_sub h none I) in G.
  - intros s o i G. apply (i_mirror h none I) in G; [|intros []]. now apply (i_obs h none I) in G.
Qed.

(** Construction subscribes the new object to exactly its arguments, in order. *)
Lemma C27_construct_lemma : forall ord h k deps, (forall l, Permutation (ord l) l) -> reach ord h -> legal h (ONew k deps) ->
  exists h', step ord h (ONew k deps) = Ok h' /\ alive h' (length h) /\ okind (get h' (length h)) = k /\
    (forall i s, dep h' (length h) i s <-> nth_error deps i = Some s) /\
    (forall o i s, o <> length h -> (dep h' o i s <-> dep h o i s)).
Proof.
  intros ord h k deps Hord R L. destruct (construct_ok h k deps (reach_wf ord h Hord R) L) as [h' [E [_ [G D]]]].
  exists h'. split; [exact E|]. split; [unfold alive; now rewrite G|]. split; [now rewrite G|]. split.
  - intros i s. unfold dep. rewrite G. cbn [odeps]. rewrite nth_error_map. destruct (nth_error deps i); cbn; split; congruence.
  - intros o i s Ho. unfold dep. now rewrite D.
Qed.

(** A node pointer that is assigned a node points to that node and to nothing else; cleared, it
    points to nothing. *)
Lemma C27_pointer_assign_lemma : forall ord h v s, (forall l, Permutation (ord l) l) -> reach ord h -> legal h (OAssign v s) ->
  exists h', step ord h (OAssign v s) = Ok h' /\ alive h' v /\ forall t, dep h' v 0 t <-> s = Some t.
Proof.
  intros ord h v s Hord R L. pose proof (nlive_len h) as Hn. assert (Hn' : nlive h <= S (length h)) by lia.
  destruct (assign_ok ord Hord h v s _ (reach_wf ord h Hord R) Hn' L) as [h' [E [_ [A B]]]]. eauto.
Qed.
Lemma C27_pointer_clear_lemma : forall ord h v, (forall l, Permutation (ord l) l) -> reach ord h -> legal h (OClear v) ->
  exists h', step ord h (OClear v) = Ok h' /\ alive h' v /\ forall i t, ~ dep h' v i t.
Proof.
  intros ord h v Hord R L. pose proof (nlive_len h) as Hn. assert (Hn' : nlive h <= S (length h)) by lia.
  destruct (clear_ok ord Hord h v _ (reach_wf ord h Hord R) L Hn') as [h' [E [_ [A B]]]]. eauto.
Qed.

(** Copy assignment makes an observer depend on exactly what the other depends on; move
    assignment hands the dependencies over index by index and leaves the other without any. *)
Lemma C27_copy_assign_lemma : forall ord h o x, (forall l, Permutation (ord l) l) -> reach ord h -> legal h (OCopy o x) ->
  exists h', step ord h (OCopy o x) = Ok h' /\ alive h' o /\ forall s, (exists i, dep h' o i s) <-> exists i, dep h x i s.
Proof.
  intros ord h o x Hord R L. pose proof (nlive_len h) as Hn. assert (Hn' : nlive h <= S (length h)) by lia. cbn [step].
  destruct (Nat.eqb_spec o x) as [->|Hne].
  - exists h. split; auto. split; [destruct L as [[[A _] _]|[[A _] _]]; exact A|reflexivity].
  - destruct (copy_ok ord Hord h o x _ (reach_wf ord h Hord R) Hne L Hn') as [h' [E [_ [A B]]]]. eauto.
Qed.
Lemma C27_move_assign_lemma : forall ord h o x, (forall l, Permutation (ord l) l) -> reach ord h -> legal h (OMove o x) -> o <> x ->
  exists h', step ord h (OMove o x) = Ok h' /\ alive h' o /\ alive h' x /\ (forall i s, ~ dep h' x i s) /\ (forall i s, dep h' o i s <-> dep h x i s).
Proof.
  intros ord h o x Hord R [[A B] [C D]] Hne. pose proof (nlive_len h) as Hn. assert (Hn' : nlive h <= S (length h)) by lia. cbn [step].
  destruct (Nat.eqb_spec o x) as [->|_]; [congruence|].
  destruct (move_ok ord Hord h o x _ (reach_wf ord h Hord R) Hne A C B D Hn') as [h' [E [_ [P [Q [S [T _]]]]]]]. exists h'. auto 6.
Qed.

(** Move construction of a variable or connector: whoever observed the old node observes the
    new one under the same index, and nobody observes the old one. *)
Lemma C27_move_construct_lemma : forall ord h x, (forall l, Permutation (ord l) l) -> reach ord h -> legal h (OMoveNew x) ->
  exists h', step ord h (OMoveNew x) = Ok h' /\ (forall o i, ~ dep h' o i x) /\ (forall o i, o <> x -> dep h o i x -> dep h' o i (length h)).
Proof.
  intros ord h x Hord R L. pose proof (nlive_len h) as Hn. assert (Hn' : nlive h <= S (length h)) by lia.
  destruct (move_new_ok ord Hord h x _ (reach_wf ord h Hord R) L Hn' ltac:(lia)) as [h' [E [_ [A [B _]]]]]. exists h'. auto.
Qed.

(** Destroying any object at any point of any history ends normally. What is destroyed is exactly:
    the object; whatever computes from something destroyed; and constants and generators that
    thereby lose their last observer. All links among survivors stay, all others go. *)
Lemma C28_destroy_lemma : forall ord h x, (forall l, Permutation (ord l) l) -> reach ord h -> alive h x ->
  exists h', step ord h (ODelete x) = Ok h' /\
    (forall y, alive h y -> (dead h (eq x) y -> ophase (get h' y) = Gone) /\ (~ dead h (eq x) y -> alive h' y)) /\
    (forall y, alive h' y -> alive h y /\ ~ dead h (eq x) y) /\
    (forall o i s, dep h' o i s <-> dep h o i s /\ ~ dead h (eq x) o /\ ~ dead h (eq x) s) /\
    (forall s o i, link h' s o i <-> link h s o i /\ ~ dead h (eq x) o /\ ~ dead h (eq x) s).
Proof.
  intros ord h x Hord R Hx. pose proof (nlive_len h) as Hn. assert (Hn' : nlive h <= S (length h)) by lia.
  destruct (delete_wf ord Hord h x _ (reach_wf ord h Hord R) Hx Hn') as [h' [D [E [W' [HD A]]]]]. exists h'. split; [exact E|].
  assert (ND : forall y, D y = false <-> ~ dead h (eq x) y) by (intros y; rewrite <- HD; destruct (D y); split; congruence).
  pose proof (fun y => r_phase _ _ _ _ _ _ _ A y (fun f => f)) as Ph. unfold alive in *. split; [|split; [|split]].
  - intros y Hy. specialize (Ph y). split; intros G; [apply HD in G|apply ND in G]; rewrite G in Ph; [tauto|congruence].
  - intros y Hy. specialize (Ph y). rewrite <- ND. destruct (D y); [destruct Ph; congruence|]. split; auto. congruence.
  - intros o i s. rewrite (r_dep _ _ _ _ _ _ _ A) by (intros []). rewrite !ND. unfold none. tauto.
  - intros s o i. rewrite (r_link _ _ _ _ _ _ _ A). rewrite !ND. unfold none. tauto.
Qed.

(** Objects may be destroyed in any order: running through any list of objects and destroying those
    that are still there always ends normally, with none of them left. *)
Fixpoint destroy_each (ord : list nat -> list nat) (l : list nat) (h : heap) : res heap :=
  match l with
  | [] => Ok h
  | x :: l' => h' <- match ophase (get h x) with Live => step ord h (ODelete x) | _ => Ok h end ;; destroy_each ord l' h'
  end.
Lemma C28_any_order_lemma : forall ord l h, (forall l, Permutation (ord l) l) -> reach ord h ->
  exists h', destroy_each ord l h = Ok h' /\ reach ord h' /\ (forall x, In x l -> ~ alive h' x) /\ (forall x, alive h' x -> alive h x).
Proof.
  intros ord l h Hord. revert h. induction l as [|x l IH]; intros h R; [exists h; repeat split; auto|].
  cbn [destroy_each].
  assert (S1 : exists h1, (match ophase (get h x) with Live => step ord h (ODelete x) | _ => Ok h end) = Ok h1 /\ reach ord h1 /\ ~ alive h1 x /\ forall y, alive h1 y -> alive h y).
  { destruct (ophase (get h x)) eqn:P; try (exists h; split; auto; split; auto; split; auto; unfold alive; congruence).
    destruct (C28_destroy_lemma ord h x Hord R P) as [h1 [E [G1 [G2 _]]]]. exists h1. split; auto. split; [exact (reach_step ord h (ODelete x) h1 R P E)|].
    split; [intros Q; destruct (G2 x Q) as [_ Q2]; apply Q2; now apply dead_root|intros y Q; now apply G2]. }
  destruct S1 as [h1 [E1 [R1 [N1 M1]]]]. rewrite E1. cbn [bind]. destruct (IH h1 R1) as [h2 [E2 [R2 [N2 M2]]]].
  exists h2. split; auto. split; auto. split; [|auto]. intros y [<-|Hy]; auto.
Qed.

(** An observer that ends in a null dependency (first argument set, second null) cannot be destroyed:
    the removal of the first pops the second too and the destructor's next removal throws. *)
Lemma C28_null_tail_refuted_lemma : forall ord, exists h0 h1,
  construct [mkobj KLeaf Live [] []] KConn [0] = Ok h0 /\ add_dependency h0 1 None = Ok h1 /\ delete ord 5 h1 1 = Abort.
Proof.
  intros ord. eexists. eexists. split; [reflexivity|]. split; [reflexivity|]. reflexivity.
Qed.

Local Ltac legalnew := split; [intros ?s ?Hin; cbn in Hin; repeat (destruct Hin as [Hin|Hin]; [subst; split; reflexivity|]); destruct Hin|split; [try discriminate; auto|try discriminate; auto]].
Local Ltac grow R c :=
  match type of R with reach ?ord ?h =>
    let r := eval vm_compute in (step ord h c) in
    match r with Ok ?h' =>
      let R' := fresh "R" in
      assert (R' : reach ord h') by (apply (reach_step ord h c h' R); [legalnew|vm_compute; reflexivity]); clear R; rename R' into R
    end
  end.

(** Moving a generator that somebody observes destroys it during the move: the object is used
    after its destruction. *)
Lemma C27_move_generator_refuted_lemma : exists h, reach (fun l => l) h /\ alive h 1 /\ okind (get h 1) = KGen /\
  move_new (fun l => l) (delete (fun l => l) 9) h 1 = UB.
Proof.
  pose proof (reach_empty (fun l => l)) as R. grow R (ONew KLeaf []). grow R (ONew KGen [0]). grow R (ONew KVar [1]).
  match type of R with reach _ ?h => exists h end. split; [exact R|]. vm_compute. auto.
Qed.

(** Copy-assigning a generator from the generator that it alone observes destroys the source in
    the middle of the copy. *)
Lemma C27_copy_generator_refuted_lemma : exists h, reach (fun l => l) h /\ alive h 1 /\ alive h 2 /\ okind (get h 1) = KGen /\ okind (get h 2) = KGen /\
  copy_helper (delete (fun l => l) 9) h 2 1 = UB.
Proof.
  pose proof (reach_empty (fun l => l)) as R. grow R (ONew KLeaf []). grow R (ONew KGen [0]). grow R (ONew KGen [1]). grow R (ONew KVar [2]).
  match type of R with reach _ ?h => exists h end. split; [exact R|]. vm_compute. auto 6.
Qed.

(** a history with every kind of object: variable 0, constant 1, sum 2 = [0;1], product 3 = [2;2],
    pointers 4 -> 3 and 5 -> 0 *)
Definition demo_heap : res heap :=
  h <- step (fun l => l) [] (ONew KLeaf []) ;; h <- step (fun l => l) h (ONew (KConst false) []) ;;
  h <- step (fun l => l) h (ONew KConn [0; 1]) ;; h <- step (fun l => l) h (ONew KConn [2; 2]) ;;
  h <- step (fun l => l) h (ONew KVar [3]) ;; step (fun l => l) h (ONew KVar [0]).
Lemma C27_nonvacuous_lemma : exists h, reach (fun l => l) h /\ demo_heap = Ok h /\ dep h 3 1 2 /\ link h 2 3 1 /\ dep h 4 0 3 /\ legal h (OAssign 4 (Some 2)) /\ legal h (OMove 2 3).
Proof.
  pose proof (reach_empty (fun l => l)) as R. grow R (ONew KLeaf []). grow R (ONew (KConst false) []). grow R (ONew KConn [0;1]). grow R (ONew KConn [2;2]). grow R (ONew KVar [3]). grow R (ONew KVar [0]).
  match type of R with reach _ ?h => exists h end. split; [exact R|]. split; [vm_compute; reflexivity|]. split; [reflexivity|]. split; [cbv; auto|]. split; [reflexivity|]. split.
  - split; [split; reflexivity|]. intros x G. inversion G. subst. split; reflexivity.
  - repeat split; reflexivity.
Qed.
(** destroying the variable of that history takes the sum, the product and the constant with it,
    and empties both pointers *)
Lemma C28_nonvacuous_lemma : exists h h', demo_heap = Ok h /\ step (fun l => l) h (ODelete 0) = Ok h' /\
  map (fun o => (ophase o, odeps o)) h' = [(Gone, []); (Gone, []); (Gone, []); (Gone, []); (Live, []); (Live, [])].
Proof.
  let r := eval vm_compute in demo_heap in match r with Ok ?h => exists h;
    let r' := eval vm_compute in (step (fun l => l) h (ODelete 0)) in match r' with Ok ?h' => exists h' end end.
  vm_compute. auto.
Qed.
