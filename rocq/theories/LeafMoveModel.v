(** Model of moving and of assigning placeholders and variables, on top of LeafModel: what
    happens to the tensor, the initializer and the flag of both nodes. Labels are not modelled;
    what happens to the observers of the two nodes is in ReactModel. *)
From Verif Require Import Common ShapeModel TensorModel LeafModel.

Section LeafMove.
Context {T : Type} (zero junk : T) (add sub : T -> T -> T) (eqb : T -> T -> bool).

(** A world of LeafModel and which nodes have been moved from: their data_ is null. The
    tensor that LeafModel has at such a position is a placeholder without storage that no
    operation below looks at. *)
Record mworld := mkM { m_w : @lworld T; m_gone : nat -> bool }.
Definition mark (g : nat -> bool) (i : nat) (b : bool) : nat -> bool := fun k => if k =? i then b else g k.
(** the address of the node created next *)
Definition next (M : mworld) : nat := length (l_fs (m_w M)).

Inductive mop :=
| MOp (o : @lop T)
| MMove (i : nat)              (* i.move(): a new node *)
| MMoveAssign (i j : nat)      (* i = std::move(j) *)
| MCopyAssign (i j : nat).     (* i = j *)

(** ivariable.ipp:113-123 move_helper: what is left of the source's initializer *)
Definition moved_kind (k : @kind T) : kind := match k with KVar _ => KVar None | _ => k end.
(** placeholders are assigned to placeholders, variables to variables *)
Definition same_class (a b : @kind T) : bool :=
  match a, b with KPlace, KPlace | KVar _, KVar _ => true | _, _ => false end.
Definition movable (k : @kind T) : bool := match k with KPlace | KVar _ => true | _ => false end.

(** ileaf.ipp:133-141 get_eval *)
Definition mleaf_eval (M : mworld) (j : nat) : res (option tensor) :=
  if m_gone M j then f <- lf (m_w M) j ;; Ok None else leaf_eval (m_w M) j.
(** ileaf.ipp:85-93 get_shape *)
Definition mget_shape (M : mworld) (i : nat) : res shape :=
  if m_gone M i then f <- lf (m_w M) i ;; Ok []
  else t <- lookup (l_w (m_w M)) i ;; Ok (get_shape t).
(** ileaf.ipp:96-100 *)
Definition good_status (M : mworld) (i : nat) : res bool := f <- lf (m_w M) i ;; Ok (l_init f).

Definition mstep (M : mworld) (o : mop) : res mworld :=
  let W := m_w M in
  let g := m_gone M in
  let old o := W' <- lstep zero junk add sub eqb W o ;; Ok (mkM W' g) in
  match o with
  | MOp o =>
    match o with
    | LFeed i _ | LFeedTensor i _ => if g i then UB else old o (* placeholder.ipp:61, 87: data_ is followed *)
    | LInit i | LInitShape i _ => (* variable.ipp:56, 73: first the assert, then data_ is followed *)
      if g i then f <- lf W i ;; match l_kind f with KVar None => Abort | _ => UB end else old o
    | LRun u _ => (* variable.ipp:97-110 and the same in assign_add, assign_sub *)
      x <- rd (l_us W) u ;;
      match x with
      | UNop => old o
      | UData _ i _ => if g i then UB else old o
      | UNode _ i j =>
        if g i then e <- mleaf_eval M j ;; match e with None => Abort | Some _ => UB end
        else if g j then Abort else old o
      end
    | LClone i => (* ileaf.ipp:144-157: there is no tensor to clone *)
      if g i then
        f <- lf W i ;;
        if movable (l_kind f) then Ok (mkM (lnew W (lheap W) blank (l_kind f) (l_init f)) (mark g (next M) true)) else UB
      else old o
    | _ => old o
    end
  | MMove i => (* ileaf.ipp:126-131, 159-169, ivariable.ipp:88-93, 113-123 on a new node *)
    f <- lf W i ;; t <- lookup (l_w W) i ;;
    if movable (l_kind f) then
      let W1 := lset W (lheap W) i blank (moved_kind (l_kind f)) (l_init f) in
      Ok (mkM (lnew W1 (lheap W1) t (l_kind f) (l_init f)) (mark (mark g (next M) (g i)) i true))
    else UB
  | MMoveAssign i j => (* ileaf.ipp:44-54, ivariable.ipp:47-57: both notify *)
    fi <- lf W i ;; fj <- lf W j ;; ti <- lookup (l_w W) i ;; tj <- lookup (l_w W) j ;;
    if same_class (l_kind fi) (l_kind fj) then
      if i =? j then Ok M
      else
        h <- hfree (lheap W) (raw ti) ;;
        let W1 := lset W h i tj (l_kind fj) (l_init fj) in
        let W2 := lset W1 h j blank (moved_kind (l_kind fj)) (l_init fj) in
        Ok (mkM (lnotify (lnotify W2 i) i) (mark (mark g i (g j)) j true))
    else UB
  | MCopyAssign i j => (* ileaf.ipp:32-42, 143-157, ivariable.ipp:35-45, 95-111 *)
    fi <- lf W i ;; fj <- lf W j ;; ti <- lookup (l_w W) i ;; tj <- lookup (l_w W) j ;;
    if same_class (l_kind fi) (l_kind fj) then
      if i =? j then Ok M
      else
        h <- hfree (lheap W) (raw ti) ;;
        r <- (if g j then Ok (h, blank) else t_copy_helper junk h blank tj (negb (l_init fj))) ;;
        let W1 := lset W (fst r) i (snd r) (l_kind fj) (l_init fj) in
        Ok (mkM (lnotify (lnotify W1 i) i) (mark g i (g j)))
    else UB
  end.

Fixpoint mrun (M : mworld) (ops : list mop) : res mworld :=
  match ops with [] => Ok M | o :: rest => M' <- mstep M o ;; mrun M' rest end.
Definition minit : mworld := mkM linit (fun _ => false).
End LeafMove.
