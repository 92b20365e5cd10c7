(** Every operation leaves a buffer of the size it was given, so the values of all nodes are
    full tensors. *)
From Coq Require Import Lia.
From Verif Require Import Common ShapeModel MemModel FitModel TransformModel MatmulModel ElemSpec ElemModel GradModel CseModel CseSpec.
Local Open Scope list_scope.

Definition yields {A} (P : A -> Prop) (r : res A) : Prop := forall x, r = Ok x -> P x.
Lemma yields_bind {A B} (P : B -> Prop) (r : res A) (k : A -> res B) : (forall v, r = Ok v -> yields P (k v)) -> yields P (bind r k).
Proof. intros H x E. destruct r; cbn [bind] in E; try discriminate. eapply H; eauto. Qed.
Lemma yields_bind2 {A B} (Q : A -> Prop) (P : B -> Prop) (r : res A) (k : A -> res B) : yields Q r -> (forall v, Q v -> yields P (k v)) -> yields P (bind r k).
Proof. intros Hr H. apply yields_bind. intros v E. apply H, Hr, E. Qed.
Lemma yields_for {S} (P : S -> Prop) n (body : nat -> S -> res S) s : P s -> (forall i s, P s -> yields P (body i s)) -> yields P (for_ n body s).
Proof.
  intros H0 H. unfold for_. generalize 0 as i. revert s H0. induction n as [|n IH]; intros s H0 i; cbn [forloop].
  - intros x [= <-]. auto.
  - apply (yields_bind2 P); auto.
Qed.
Lemma yields_ok {A} (P : A -> Prop) x : P x -> yields P (Ok x). Proof. intros H y [= <-]. auto. Qed.
Lemma yields_bad {A} (P : A -> Prop) : yields P UB /\ yields P Throw /\ yields P Abort. Proof. repeat split; discriminate. Qed.
Lemma yields_wr {A} L (d : list A) i v : length d = L -> yields (fun d => length d = L) (wr d i v).
Proof. intros H x E. unfold wr in E. destruct (_ <? _); [|discriminate]. injection E as <-. now rewrite length_set_nth. Qed.

Section Full.
Context {T : Type} (N : num T) (fresh : nat -> T) (strassen_on : bool) (of_nat : nat -> T).
Notation keeps L := (yields (fun d : list T => length d = L)).
Notation keeps2 L := (yields (fun st : list nat * list T => length (snd st) = L)).

Ltac go := repeat (cbn beta iota zeta; match goal with
  | |- yields _ (wr ?d _ _) => apply yields_wr; auto
  | |- yields _ (for_ _ _ _) => apply yields_for; [auto|intros ? ? ?]
  | |- yields _ (Ok _) => apply yields_ok; auto
  | |- yields _ (let '(_, _) := ?x in _) => destruct x; cbn [snd fst] in *
  | |- yields _ (if ?b then _ else _) => destruct b
  | |- yields _ UB => let E := fresh in intros ? E; discriminate E
  | |- yields (fun d : list T => length d = ?L) (bind (wr (A := T) _ _ _) _) => apply (yields_bind2 (fun d : list T => length d = L)); [|intros ? ?]
  | |- yields (fun st : list nat * list T => length (snd st) = ?L) (bind (wr (A := T) _ _ _) _) => apply (yields_bind2 (fun d : list T => length d = L)); [|intros ? ?]
  | |- yields (fun d : list T => length d = ?L) (bind (for_ (S := (list nat * list T)%type) _ _ _) _) => apply (yields_bind2 (fun st : list nat * list T => length (snd st) = L)); [|intros ? ?]
  | |- yields (fun st : list nat * list T => length (snd st) = ?L) (bind (for_ (S := (list nat * list T)%type) _ _ _) _) => apply (yields_bind2 (fun st : list nat * list T => length (snd st) = L)); [|intros ? ?]
  | |- yields _ (bind _ _) => apply yields_bind; intros ? ?
  end).

Lemma gather_len outs ins ch (src dest : list T) L : length dest = L -> keeps L (gather outs ins ch src dest).
Proof. intros H. unfold gather. go. Qed.
Lemma memcpy_len (dest src : list T) d s n L : length dest = L -> keeps L (memcpy dest d src s n).
Proof. intros H. unfold memcpy. go. Qed.
Lemma transform_len f o i s (d : list T) L : length d = L -> keeps L (transform_fwd f o i s d).
Proof. intros H. unfold transform_fwd. go. Qed.
Lemma binary_len f o i s (d : list T) L : length d = L -> keeps L (binary_elem f o i s d).
Proof. intros H. unfold binary_elem. go. Qed.
Lemma axial_len f ax lft o i s (d : list T) L : length d = L -> keeps L (binary_axial f ax lft o i s d).
Proof. intros H. unfold binary_axial. go. Qed.
Lemma transpose_len ax o i s (d : list T) L : length d = L -> keeps L (transpose_fwd ax o i s d).
Proof. intros H. unfold transpose_fwd. go; auto using memcpy_len, gather_len. Qed.
Lemma fit_len z o i0 i1 s (d : list T) L : length d = L -> keeps L (fit_op_fwd z o i0 i1 s d).
Proof. intros H. unfold fit_op_fwd. go. Qed.
Lemma extend_len k o i s (d : list T) L : length d = L -> keeps L (extend_fwd k o i s d).
Proof. intros H. unfold extend_fwd. go. now apply gather_len. Qed.
Lemma flip_len k o i s (d : list T) L : length d = L -> keeps L (flip_fwd k o i s d).
Proof. intros H. unfold flip_fwd. now apply gather_len. Qed.
Lemma compress_len c k o i s (d : list T) L : length d = L -> keeps L (compress_fwd c k o i s d).
Proof. intros H. unfold compress_fwd. go; auto using memcpy_len. Qed.
Lemma compress_all_len c i s (d : list T) L : length d = L -> keeps L (compress_all_fwd c i s d).
Proof. intros H. unfold compress_all_fwd. go. Qed.
Lemma arg_len f k o i s (d : list T) L : length d = L -> keeps L (arg_compress_fwd f k o i s d).
Proof.
  intros H. unfold arg_compress_fwd. apply yields_for; auto. intros j e He. repeat (apply yields_bind; intros ? ?). apply yields_wr; auto.
Qed.
Lemma arg_all_len f i s (d : list T) L : length d = L -> keeps L (arg_compress_all_fwd f i s d).
Proof. intros H. unfold arg_compress_all_fwd. go. Qed.
Lemma corr_len z a m d1 d2 o i s0 s1 (d : list T) L : length d = L -> keeps L (cross_corr_fwd z a m d1 d2 o i s0 s1 d).
Proof. intros H. unfold cross_corr_fwd. go. Qed.
Lemma l2norm_len o i s (d : list T) L : length d = L -> keeps L (l2norm_fwd N o i s d).
Proof. intros H. unfold l2norm_fwd. go. Qed.
Lemma extract_len f o i s (d : list T) L : length d = L -> keeps L (extract N of_nat f o i s d).
Proof. intros H. unfold extract. apply yields_bind; intros ? ?. apply yields_bind; intros ? ?. apply yields_for; [rewrite repeat_length; auto|intros ? ? ?]. go. Qed.
Lemma clipnorm_len cap o i s (d : list T) L : length d = L -> keeps L (clip_norm_fwd N cap o i s d).
Proof. intros H. unfold clip_norm_fwd. go. Qed.

(* matmul: the first block keeps its size *)
Definition first_is L (m : MemModel.mem T) : Prop := 0 < length m /\ length (nth 0 m []) = L.
Lemma wr_first L (m : MemModel.mem T) i b : (i = 0 -> length b = L) -> first_is L m -> yields (first_is L) (wr m i b).
Proof.
  intros Hb [H1 H2] x E. unfold wr in E. destruct (_ <? _); [|discriminate]. injection E as <-. split; [now rewrite length_set_nth|].
  destruct m as [|b0 m]; [cbn in H1; lia|]. destruct i; cbn in *; auto.
Qed.
Lemma wrp_first L m p (v : T) : first_is L m -> yields (first_is L) (wrp m p v).
Proof.
  intros H. unfold wrp. apply yields_bind. intros blk E. apply yields_bind. intros blk' E'. apply wr_first; auto.
  intros Ep. assert (length blk' = length blk) by (apply (yields_wr (length blk) _ _ _ eq_refl _ E')). rewrite H0.
  unfold rd in E. rewrite Ep in E. destruct m as [|b m]; [discriminate|]. injection E as <-. apply H.
Qed.
Lemma newp_first L (m : MemModel.mem T) f n : first_is L m -> first_is L (fst (newp f m n)) /\ fst (snd (newp f m n)) <> 0.
Proof. intros [H1 H2]. unfold newp, first_is. cbn [fst snd]. rewrite app_length. split; [split; [lia|]|lia]. now rewrite app_nth1. Qed.
Lemma delp_first L (m : MemModel.mem T) p : fst p <> 0 -> first_is L m -> yields (first_is L) (delp m p).
Proof. intros Hp H. unfold delp. apply wr_first; auto. intros E. contradiction. Qed.

Context (zero : T) (add sub mul : T -> T -> T) (fr : nat -> nat -> T).
Lemma bin_first L op d x y (m : MemModel.mem T) : first_is L m -> yields (first_is L) (bin op d x y m).
Proof. intros H. unfold bin. do 2 (apply yields_bind; intros ? ?). now apply wrp_first. Qed.
Lemma cpy_first L d x (m : MemModel.mem T) : first_is L m -> yields (first_is L) (cpy d x m).
Proof. intros H. unfold cpy. do 1 (apply yields_bind; intros ? ?). now apply wrp_first. Qed.
Ltac gm := repeat (cbn beta iota zeta; match goal with
  | |- yields _ (wrp _ _ _) => apply wrp_first; auto
  | |- yields _ (bin _ _ _ _ _) => apply bin_first; auto
  | |- yields _ (cpy _ _ _) => apply cpy_first; auto
  | |- yields _ (delp _ _) => apply delp_first; auto
  | |- yields _ (for_ _ _ _) => apply yields_for; [auto|intros ? ? ?]
  | |- yields _ (if ?b then _ else _) => destruct b
  | |- yields _ UB => let E := fresh in intros ? E; discriminate E
  | |- yields (first_is ?L) (bind (rdp _ _) _) => apply yields_bind; intros ? ?
  | |- yields (first_is ?L) (bind _ _) => apply (yields_bind2 (first_is L)); [|intros ? ?]
  end).
Lemma cubic_first L c a b x y z c0 c1 c2 c3 (m : MemModel.mem T) : first_is L m -> yields (first_is L) (cubic_mul zero add mul c a b x y z c0 c1 c2 c3 m).
Proof. intros H. unfold cubic_mul. gm. Qed.
Lemma iter1_first L c a t1 t2 dp q Q (m : MemModel.mem T) : first_is L m -> yields (first_is L) (strassen_iter1 add sub c a t1 t2 dp q Q m).
Proof. intros H. unfold strassen_iter1. gm. Qed.
Lemma iter2_first L a b dp q Q (m : MemModel.mem T) : first_is L m -> yields (first_is L) (strassen_iter2 a b dp q Q m).
Proof. intros H. unfold strassen_iter2. gm. Qed.
Lemma iter3_first L c a b Q (m : MemModel.mem T) : first_is L m -> yields (first_is L) (strassen_iter3 add sub c a b Q m).
Proof. intros H. unfold strassen_iter3. gm. Qed.
Lemma iter4_first L c b t1 t2 t3 dp q Q (m : MemModel.mem T) : first_is L m -> yields (first_is L) (strassen_iter4 add sub c b t1 t2 t3 dp q Q m).
Proof. intros H. unfold strassen_iter4. gm. Qed.
Lemma strassen_first L thr fuel c a b dp (m : MemModel.mem T) : first_is L m -> yields (first_is L) (strassen zero add sub mul fr thr fuel c a b dp m).
Proof.
  revert c a b dp m. induction fuel as [|fuel IH]; intros c a b dp m H; cbn [strassen]; destruct (dp <=? thr); auto using cubic_first; [intros ? [=]|].
  destruct (newp fr m _) as [m1 p1] eqn:E1. destruct (newp_first L m fr (dp / 2 * (dp / 2)) H) as [F1 Q1]. rewrite E1 in *.
  destruct (newp fr m1 _) as [m2 p2] eqn:E2. destruct (newp_first L m1 fr (dp / 2 * (dp / 2)) F1) as [F2 Q2]. rewrite E2 in *.
  destruct (newp fr m2 _) as [m3 p3] eqn:E3. destruct (newp_first L m2 fr (dp / 2 * (dp / 2)) F2) as [F3 Q3]. rewrite E3 in *. cbn [fst snd] in *.
  repeat (apply (yields_bind2 (first_is L)); [first [now apply iter1_first|now apply iter2_first|now apply iter3_first|now apply iter4_first|now apply IH|now apply delp_first]|intros ? ?]).
  now apply delp_first.
Qed.
Lemma strassen_one_first L thr c a b x y z dp (m : MemModel.mem T) : first_is L m -> yields (first_is L) (matmul_strassen_one zero add sub mul fr thr c a b x y z dp m).
Proof.
  intros H. unfold matmul_strassen_one. cbn zeta.
  destruct (newp fr m _) as [m1 p1] eqn:E1. destruct (newp_first L m fr (dp * dp) H) as [F1 Q1]. rewrite E1 in *.
  destruct (newp fr m1 _) as [m2 p2] eqn:E2. destruct (newp_first L m1 fr (dp * dp) F1) as [F2 Q2]. rewrite E2 in *.
  destruct (newp fr m2 _) as [m3 p3] eqn:E3. destruct (newp_first L m2 fr (dp * dp) F2) as [F3 Q3]. rewrite E3 in *. cbn [fst snd] in *.
  unfold memset0p. gm. now apply strassen_first.
Qed.
Lemma matmul_first L us thr al bl c a b (m : MemModel.mem T) : first_is L m -> yields (first_is L) (matmul_fwd zero add sub mul fr us thr al bl c a b m).
Proof.
  intros H. unfold matmul_fwd. do 3 (apply yields_bind; intros ? ?). destruct (_ =? 0); [intros ? [=]|]. cbn zeta.
  apply yields_for; auto. intros i m' Hm. destruct (us && _); auto using strassen_one_first, cubic_first.
Qed.
End Full.
Section Sem.
Context {T : Type} (N : num T) (fresh : nat -> T) (strassen_on : bool) (of_nat : nat -> T).
Lemma mat_len o i s (d : list T) L : length d = L -> yields (fun d => length d = L) (mat_forward N fresh strassen_on o i s d).
Proof.
  intros H. unfold mat_forward. do 4 (apply yields_bind; intros ? ?).
  apply (yields_bind2 (first_is L)); [apply matmul_first; split; cbn; [lia|auto]|].
  intros m [H4 H5] x E. unfold rd in E. destruct m; [discriminate|]. injection E as <-. exact H5.
Qed.
Lemma pass_full shaper (F : @forward T) ts : (forall o i s d L, length d = L -> yields (fun d => length d = L) (F o i s d)) -> yields full (forward_pass fresh shaper F ts None).
Proof.
  intros H. unfold forward_pass. apply yields_bind. intros s _. destruct (is_fully_defined s) eqn:D; [|intros ? [=]].
  apply (yields_bind2 (fun d : list T => length d = n_elems s)).
  - apply H. rewrite map_length, seq_length. reflexivity.
  - intros d Hd. apply yields_ok. split; auto.
Qed.
Lemma forward1_len f : (forall o i s (d : list T) L, length d = L -> yields (fun d => length d = L) (f o i s d)) ->
  forall o i s d L, length d = L -> yields (fun d => length d = L) (forward1 f o i s d).
Proof. intros H o i s d L Hd. unfold forward1. do 2 (apply yields_bind; intros ? ?). auto. Qed.
Lemma sem_full op ts : yields full (sem N fresh strassen_on of_nat op ts).
Proof.
  destruct op as [| |u|? ? ?|? ? ?|? ?|o|o l ?|? ?|ax| |? ?|ax|ax|ax|?|? ?| |?|sz]; try (destruct sz as [sz|]); try (destruct ax as [?|]); cbn [sem]; apply pass_full;
    try apply forward1_len; intros;
    auto using transform_len, binary_len, axial_len, mat_len, transpose_len, extend_len, flip_len, compress_len, compress_all_len, arg_len, arg_all_len, l2norm_len, clipnorm_len, extract_len.
  - do 3 (apply yields_bind; intros ? ?). auto using fit_len.
  - do 3 (apply yields_bind; intros ? ?). auto using corr_len.
Qed.
End Sem.
