(** Model of app/tenncor/src/graph/react/subject.cpp, iobserver.cpp and of the kill conditions
    of the node classes. Objects live in a heap and are never reused. Left out: the recorder
    (EDGE_RCD), metadata, and the "on death dependents" (add_ondeath_dependent is only used for
    the temporary graphs of base_immutable.ipp:262-293). *)
From Verif Require Import Common.

(** KLeaf: variable, placeholder. KConst: constant, with is_managed_. KConn: base_immutable.
    KGen: generator. KVar: varptr. *)
Inductive kind := KLeaf | KConst (managed : bool) | KConn | KGen | KVar.
(** which class has a subject part, which an iobserver part *)
Definition has_sub (k : kind) : bool := match k with KVar => false | _ => true end.
Definition has_obs (k : kind) : bool := match k with KConn | KGen | KVar => true | _ => false end.

(** how far destruction of the object has come: not begun, inside ~iobserver, inside
    ~subject, finished *)
Inductive phase := Live | DyingObs | DyingSub | Gone.

(** dependencies_ (iobserver.hpp:91) and audience_ (subject.hpp:105), the latter as the list
    of its (observer, index) pairs *)
Record obj := mkobj { okind : kind; ophase : phase; odeps : list (option nat); oaud : list (nat * nat) }.
Definition heap := list obj.
Definition nobody : obj := mkobj KLeaf Gone [] [].
Definition get (h : heap) (x : nat) : obj := nth x h nobody.
Definition put (h : heap) (x : nat) (o : obj) : heap := set_nth x o h.
Definition set_phase (h : heap) x p := let o := get h x in put h x (mkobj (okind o) p (odeps o) (oaud o)).
Definition set_deps (h : heap) x d := let o := get h x in put h x (mkobj (okind o) (ophase o) d (oaud o)).
Definition set_aud (h : heap) x a := let o := get h x in put h x (mkobj (okind o) (ophase o) (odeps o) a).

(** any use of an object after its destruction is undefined *)
Definition access (h : heap) (x : nat) : res obj :=
  match ophase (get h x) with Gone => UB | _ => Ok (get h x) end.

Definition pair_eqb (p q : nat * nat) : bool := (fst p =? fst q) && (snd p =? snd q).
Definition memp (p : nat * nat) (l : list (nat * nat)) : bool := existsb (pair_eqb p) l.

(** a loop over a container *)
Fixpoint each {A} (f : heap -> A -> res heap) (l : list A) (h : heap) : res heap :=
  match l with [] => Ok h | a :: l' => h' <- f h a ;; each f l' h' end.

(** trailing null pointers dropped, iobserver.cpp:121-125 *)
Fixpoint pop_nulls (d : list (option nat)) : list (option nat) :=
  match d with
  | [] => []
  | x :: d' => match pop_nulls d', x with [], None => [] | r, _ => x :: r end
  end.

(** an exception that leaves a destructor terminates the program *)
Definition noexcept {A} (r : res A) : res A := match r with Throw => Abort | _ => r end.

(** [ord]: the unspecified iteration order of the unordered containers *)
Section React.
Context (ord : list nat -> list nat).

Section Del.
(** destruction of a heap object ([delete p]) *)
Context (del : heap -> nat -> res heap).

(** subject.cpp:150-163 attach *)
Definition attach (h : heap) (s v idx : nat) : res heap :=
  o <- access h s ;;
  Ok (if memp (v, idx) (oaud o) then h else set_aud h s ((v, idx) :: oaud o)).

(** subject.cpp:114 (nothing), constant.ipp:105-111, generator.ipp:193-196
    death_on_noparent; virtual dispatch inside a destructor reaches subject's own version *)
Definition death_on_noparent (h : heap) (s : nat) : res heap :=
  match ophase (get h s), okind (get h s) with
  | Live, KConst managed => if managed then Ok h else match oaud (get h s) with [] => del h s | _ => Ok h end
  | Live, KGen => del h s
  | _, _ => Ok h
  end.

(** subject.cpp:187-212 detach *)
Definition detach (h : heap) (s v idx : nat) : res heap :=
  o <- access h s ;;
  let aud := filter (fun q => negb (pair_eqb (v, idx) q)) (oaud o) in
  let h := set_aud h s aud in
  match aud with [] => death_on_noparent h s | _ => Ok h end.

(** iobserver.cpp:98-105 add_dependency *)
Definition add_dependency (h : heap) (o : nat) (dep : option nat) : res heap :=
  ob <- access h o ;;
  h <- (match dep with Some s => attach h s o (length (odeps ob)) | None => Ok h end) ;;
  ob <- access h o ;;
  Ok (set_deps h o (odeps ob ++ [dep])).

(** iobserver.cpp:107-126 remove_dependency *)
Definition remove_dependency (h : heap) (o idx : nat) : res heap :=
  ob <- access h o ;;
  match nth_error (odeps ob) idx with
  | None => Throw
  | Some None => Ok h
  | Some (Some s) =>
    h <- detach h s o idx ;;
    ob <- access h o ;;
    d <- wr (odeps ob) idx None ;;
    Ok (set_deps h o (pop_nulls d))
  end.

(** iobserver.cpp:128-144 replace_dependency *)
Definition replace_dependency (h : heap) (o : nat) (dep : option nat) (idx : nat) : res heap :=
  ob <- access h o ;;
  let ndeps := length (odeps ob) in
  h <- (match dep with Some s => attach h s o idx | None => Ok h end) ;;
  h <- (if ndeps <=? idx then ob <- access h o ;; Ok (set_deps h o (odeps ob ++ repeat None (idx - ndeps + 1)))
        else match nth_error (odeps ob) idx with
             | Some (Some lastsub) => if match dep with Some s => lastsub =? s | None => false end then Ok h else detach h lastsub o idx
             | _ => Ok h
             end) ;;
  ob <- access h o ;;
  d <- wr (odeps ob) idx dep ;;
  Ok (set_deps h o d).

(** base_immutable.ipp:208-211, generator.ipp:187-190, varptr.ipp:53-57 death_on_broken; it is
    pure virtual in iobserver *)
Definition death_on_broken (h : heap) (v : nat) : res heap :=
  ob <- access h v ;;
  match ophase ob, okind ob with
  | Live, KVar => match odeps ob with [] => Ok h | _ => remove_dependency h v 0 end
  | Live, (KConn | KGen) => del h v
  | _, _ => UB
  end.

(** iobserver.cpp:146-164 update(dep_indices, UNSUBSCRIBE) *)
Definition unsubscribed (h : heap) (v : nat) (idxs : list nat) : res heap :=
  h <- each (fun h i => remove_dependency h v i) idxs h ;;
  death_on_broken h v.

(** the keys of audience_, the indices of one key *)
Definition viewers (a : list (nat * nat)) : list nat := nodup Nat.eq_dec (map fst a).
Definition indices (a : list (nat * nat)) (v : nat) : list nat :=
  nodup Nat.eq_dec (map snd (filter (fun q => fst q =? v) a)).

(** subject.cpp:63-90 notify(UNSUBSCRIBE) *)
Definition notify_unsubscribe (h : heap) (s : nat) : res heap :=
  o <- access h s ;;
  each (fun h v =>
    o <- access h s ;;
    match indices (oaud o) v with
    | [] => Ok h
    | idxs => unsubscribed h v (ord idxs)
    end) (ord (viewers (oaud o))) h.

(** iobserver.cpp:16-30 the destructor (without on-death dependents) *)
Definition observer_dtor (h : heap) (x : nat) : res heap :=
  noexcept (for_ (length (odeps (get h x))) (fun i h => remove_dependency h x i) h).

(** iobserver.cpp:171-183 copy_helper *)
Definition copy_helper (h : heap) (o other : nat) : res heap :=
  h <- for_ (length (odeps (get h o))) (fun i h =>
    ob <- access h o ;;
    match nth_error (odeps ob) i with Some (Some s) => detach h s o i | Some None => Ok h | None => UB end) h ;;
  ob <- access h o ;;
  let h := set_deps h o [] in
  oth <- access h other ;;
  each (fun h dep => match dep with Some s => add_dependency h o (Some s) | None => Ok h end) (odeps oth) h.

(** iobserver.cpp:185-204 move_helper *)
Definition move_helper (h : heap) (o other : nat) : res heap :=
  h <- for_ (length (odeps (get h o))) (fun i h =>
    ob <- access h o ;;
    match nth_error (odeps ob) i with Some (Some s) => detach h s o i | Some None => Ok h | None => UB end) h ;;
  oth <- access h other ;;
  ob <- access h o ;;
  let h := set_deps (set_deps h o (odeps oth)) other [] in
  for_ (length (odeps oth)) (fun i h =>
    ob <- access h o ;;
    match nth_error (odeps ob) i with
    | Some (Some s) => h <- attach h s o i ;; detach h s other i
    | Some None => Ok h
    | None => UB
    end) h.

(** subject.cpp:45-61 and 136-148: move assignment and move construction of a subject *)
Definition subject_move (h : heap) (s other : nat) : res heap :=
  oth <- access h other ;;
  let temp := oaud oth in
  h <- each (fun h v => each (fun h idx => replace_dependency h v (Some s) idx) (ord (indices temp v)) h) (ord (viewers temp)) h ;;
  oth <- access h other ;;
  Ok (set_aud h other []).
End Del.

(** destruction of a heap object: ~iobserver, then ~subject (iconnector.hpp:40 lists the bases
    as inode, iobserver; subject.cpp:22-41). The fuel bounds the nesting of destructions. *)
Fixpoint delete (fuel : nat) (h : heap) (x : nat) : res heap :=
  match fuel with
  | 0 => UB
  | S fuel =>
    match ophase (get h x) with
    | Live =>
      let k := okind (get h x) in
      h <- (if has_obs k then observer_dtor (delete fuel) (set_phase h x DyingObs) x else Ok h) ;;
      h <- (if has_sub k then noexcept (notify_unsubscribe (delete fuel) (set_phase h x DyingSub) x) else Ok h) ;;
      Ok (set_phase h x Gone)
    | _ => UB
    end
  end.
End React.

(** a new object without links *)
Definition alloc (h : heap) (k : kind) : heap := h ++ [mkobj k Live [] []].
(** iobserver.cpp:57-66 construction over a list of subjects (the classes of iconnector.ipp:183
    and varptr.ipp:15-18; leaves have no dependencies) *)
Definition construct (h : heap) (k : kind) (deps : list nat) : res heap :=
  each (fun h' s => add_dependency h' (length h) (Some s)) deps (alloc h k).
(** varptr.ipp:23-28 operator = (from a raw pointer) *)
Definition var_assign (del : heap -> nat -> res heap) (h : heap) (v : nat) (s : option nat) : res heap :=
  ob <- access h v ;;
  match odeps ob with [] => add_dependency h v s | _ => replace_dependency del h v s 0 end.
(** varptr.ipp:50 clear *)
Definition var_clear (del : heap -> nat -> res heap) (h : heap) (v : nat) : res heap := remove_dependency del h v 0.
(** inode.ipp:138-140, iconnector.ipp:246-251: move construction of a node: first the subject
    part, then (for connectors) the observer part *)
Definition move_new (ord : list nat -> list nat) (del : heap -> nat -> res heap) (h : heap) (other : nat) : res heap :=
  let k := okind (get h other) in
  h' <- subject_move ord del (alloc h k) (length h) other ;;
  if has_obs k then move_helper del h' (length h) other else Ok h'.

(** the operations open to users of nodes and node pointers *)
Inductive op :=
| ONew (k : kind) (deps : list nat)
| OAssign (v : nat) (s : option nat)
| OClear (v : nat)
| OCopy (o other : nat)
| OMove (o other : nat)
| OMoveNew (other : nat)
| ODelete (x : nat).

Definition step (ord : list nat -> list nat) (h : heap) (c : op) : res heap :=
  let del := delete ord (S (length h)) in
  match c with
  | ONew k deps => construct h k deps
  | OAssign v s => var_assign del h v s
  | OClear v => var_clear del h v
  | OCopy o other => if o =? other then Ok h else copy_helper del h o other
  | OMove o other => if o =? other then Ok h else move_helper del h o other
  | OMoveNew other => move_new ord del h other
  | ODelete x => del h x
  end.
