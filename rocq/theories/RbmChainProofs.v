(** Lemmas about sampling and the Gibbs chain. *)
From Coq Require Import String Reals Lra Lia.
From Verif Require Import Common CseModel ShapeModel ShapeSpec ShapeProofs TransformModel TransformProofs FitModel FitProofs MatmulSpec MatmulModel MatmulProofs Matmul2Proofs ElemSpec ElemModel ElemProofs NumSpec RealNum ElemLaws GradModel GradProofs MatrixSpec MatrixProofs LeafModel LeafProofs MlpSpec MlpModel MlpProofs MlpLaws RbmSpec RbmModel RbmLaws GroupModel RbmTrainModel SampleModel SampleSpec RbmChainModel.
From Verif Require NetProofs.
Local Open Scope list_scope.

Section S.
Context {T : Type} (N : num T) (fresh : nat -> T) (draw : nat -> T -> T -> T).

Lemma sample_ok n (t : tens T) z : wf t -> Forall (fun p => in_unit N p = true) (snd t) ->
  sample_value N fresh draw n t = Ok (ushape (fst t), map (fun i => draw i n (nth i (snd t) z)) (seq 0 (length (snd t)))).
Proof.
  intros [F L] H. apply forward_fresh; [now apply shaper_unary|now apply ushape_def|].
  cbn [map]. unfold sample_fwd. cbn [rd nth_error bind]. rewrite ushape_n. rewrite (for_fill_all _ (fun i => draw i n (nth i (snd t) z))).
  - now rewrite L.
  - rewrite map_length, seq_length. reflexivity.
  - intros i d Hi Ld. rewrite (rd_nth _ i z) by lia. cbn [bind]. rewrite Forall_forall in H. rewrite H by (apply nth_In; lia). cbn [assert_ bind]. apply wr_ok. lia.
Qed.
Lemma sample_abort n (t : tens T) : wf t -> Exists (fun p => in_unit N p = false) (snd t) -> sample_value N fresh draw n t = Abort.
Proof.
  intros [F L] H. unfold sample_value, forward_pass. cbn [map]. rewrite shaper_unary by exact F. cbn [bind]. rewrite ushape_def by exact F.
  match goal with |- (d <- ?x ;; _) = _ => assert (E : x = Abort); [|now rewrite E] end.
  unfold sample_fwd. cbn [map rd nth_error bind]. rewrite ushape_n.
  set (dest := map fresh _). assert (Ld : length dest = n_elems (fst t)) by (unfold dest; rewrite map_length, seq_length; reflexivity).
  set (body := fun _ _ => _).
  assert (G : forall k, k <= n_elems (fst t) -> for_ k body dest = Abort \/ (exists d, for_ k body dest = Ok d /\ length d = n_elems (fst t)) /\ forall i p, i < k -> nth_error (snd t) i = Some p -> in_unit N p = true).
  { induction k as [|k IH]; intros Hk.
    - right. split; [exists dest; split; [reflexivity|exact Ld]|]. intros; lia.
    - rewrite for_succ. destruct IH as [E|[(d & E & Ldd) A]]; [lia|rewrite E; now left|]. rewrite E. cbn [bind]. unfold body at 1 2.
      destruct (nth_error (snd t) k) as [p|] eqn:Ep; [|apply nth_error_None in Ep; lia]. unfold rd. rewrite Ep. cbn [bind].
      destruct (in_unit N p) eqn:U; [|now left]. right. cbn [assert_ bind]. rewrite wr_ok by lia. split; [eexists; split; [reflexivity|]; now rewrite length_set_nth|].
      intros i q Hi Hq. destruct (Nat.eq_dec i k) as [->|]; [congruence|]. apply (A i q); auto; lia. }
  destruct (G (n_elems (fst t))) as [E|[_ A]]; [lia|exact E|]. exfalso. apply Exists_exists in H. destruct H as (p & Hin & U). apply In_nth_error in Hin. destruct Hin as (i & Hi).
  rewrite (A i p) in U; [discriminate| |exact Hi]. apply nth_error_lt in Hi. lia.
Qed.
Lemma constant_ok (t : tens T) : wf t -> as_constant_value fresh t = Ok t.
Proof.
  intros [F L]. unfold as_constant_value. destruct t as [s d]. cbn [fst snd] in *. apply forward_fresh; [reflexivity|exact F|].
  cbn [map rd nth_error bind snd fst].
  destruct d as [|d0 l] eqn:Ed. { cbn in L. rewrite <- L. reflexivity. }
  rewrite (for_fill_all _ (fun i => nth i (d0 :: l) d0)).
  - rewrite <- L. f_equal. transitivity (map (fun x => x) (d0 :: l)); [apply (map_seq_nth (fun x => x))|apply map_id].
  - rewrite map_length, seq_length. reflexivity.
  - intros i dd Hi Ldd. rewrite (rd_nth _ i d0) by lia. cbn [bind]. apply wr_ok. lia.
Qed.
End S.

Lemma unit_R p : in_unit Rnum p = true <-> (0 <= p <= 1)%R.
Proof.
  unfold in_unit. change (n_ltb Rnum p (n_zero Rnum)) with (Rltb p 0). change (n_ltb Rnum (n_one Rnum) p) with (Rltb 1 p).
  rewrite andb_true_iff, !negb_true_iff, !Rltb_false. lra.
Qed.

Lemma mat_wf {T} c r (t : tens T) : matrix c r t -> wf t.
Proof. intros M. split; [now apply (matrix_def _ _ _ M)|]. rewrite (matrix_n _ _ _ M). apply M. Qed.

Lemma sample_mat fresh draw c r t : matrix c r t -> (forall x y, x < c -> y < r -> (0 <= entry 0 c t x y <= 1)%R) ->
  exists s, sample_value Rnum fresh draw (n_one Rnum) t = Ok s /\ matrix c r s /\ forall x y, x < c -> y < r -> entry 0%R c s x y = draw (x + c * y) 1%R (entry 0%R c t x y).
Proof.
  intros M H. pose proof M as (Hc & Hr & L & S).
  eexists. split; [apply (sample_ok Rnum fresh draw 1%R t 0%R); [now apply (mat_wf c r)|]|split].
  - apply Forall_forall. intros p Hp. apply (In_nth _ _ 0%R) in Hp. destruct Hp as (i & Hi & <-). apply unit_R. rewrite L in Hi.
    destruct (NetProofs.grid_index c r i Hc Hi) as (E & Hx & Hy). rewrite E. now apply H.
  - repeat split; auto; cbn [fst snd]; [rewrite map_length, seq_length; exact L|]. unfold ushape. rewrite (matrix_n _ _ _ M). destruct (Nat.eqb_spec (c * r) 1); [now right|exact S].
  - intros x y Hx Hy. unfold entry at 1. cbn [snd]. assert (Hi : x + c * y < length (snd t)) by nia. erewrite nth_error_nth; [reflexivity|].
    rewrite nth_error_map, nth_error_seq by exact Hi. reflexivity.
Qed.
