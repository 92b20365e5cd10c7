(** Laws of moving an rbm and of assigning mlp, rbm and db_net: C45, continued. *)
From Coq Require Import String Reals Lra Lia.
From Verif Require Import Common ShapeModel ElemModel ElemProofs NumSpec RealNum ElemLaws GradModel DqnModel MatrixSpec MatrixProofs MlpSpec MlpModel MlpProofs MlpLaws CopyLaws.
From Verif Require Import MoveLayerModel.
Local Open Scope list_scope.

Lemma free_all_app {T} a b (st : @store T) : free_all (a ++ b) st = (st <- free_all a st ;; free_all b st).
Proof. revert st. induction a as [|p a IH]; intros st; cbn [app free_all bind]; [reflexivity|]. destruct (free p st); cbn [bind]; auto. Qed.
Lemma rbms_free {T} rs : forall qs (st : @store T), flat_map rbm_variables rs = map Some qs -> rbms_delete rs st = free_all qs st.
Proof.
  induction rs as [|r rs IH]; intros qs st H; cbn [rbms_delete].
  - destruct qs; [reflexivity|discriminate].
  - cbn [flat_map rbm_variables app] in H. destruct qs as [|a [|b [|c qs]]]; try discriminate. cbn [map] in H. injection H as E1 E2 E3 E.
    unfold rbm_delete. rewrite E1, E2, E3. cbn [free_ptr free_all]. destruct (free a st) as [s1| | |]; cbn [bind]; try reflexivity.
    destruct (free b s1) as [s2| | |]; cbn [bind]; try reflexivity. destruct (free c s2) as [s3| | |]; cbn [bind]; try reflexivity. now apply IH.
Qed.
Lemma some_app (l : list nat) : forall (a b : list (option nat)), a ++ b = map Some l -> exists x y, a = map Some x /\ b = map Some y /\ l = x ++ y.
Proof.
  induction l as [|n l IH]; intros [|o a] b H; try discriminate.
  - exists [], []. auto.
  - exists [], (n :: l). auto.
  - cbn in H. injection H as -> H. destruct (IH a b H) as (x & y & -> & -> & ->). exists (n :: x), y. auto.
Qed.
Lemma db_free {T} (d : db_net) ps (st : @store T) : db_variables d = Ok (map Some ps) -> db_delete d st = free_all ps st.
Proof.
  unfold db_variables, db_delete. destruct (d_log d) as [l|]; [|discriminate]. intros H. injection H as H. destruct (some_app _ _ _ H) as (x & y & A & B & ->).
  rewrite (rbms_free _ x st A), free_all_app. unfold fc_delete. assert (y = fc_variables l) as ->; [|reflexivity].
  clear - B. revert y B. induction (fc_variables l) as [|v vs IH]; intros [|y0 y] B; try discriminate; [reflexivity|]. cbn in B. injection B as -> B. f_equal. now apply IH.
Qed.

(** Move-assigning an mlp: for the same object nothing; otherwise the target's parameters are
    deleted, it takes over everything of the source, parameters (not copies) and scope too, and
    computes what the source did; the source has no parameters left; no other variable changes. *)
Lemma C45_mlp_move_assign_lemma :
  forall (T : Type) (N : num T) same fresh use env (this other : @mlp T) (st : @store T) input in_shape,
    alive st (mlp_variables this) -> NoDup (mlp_variables this) -> (forall p, In p (mlp_variables this) -> ~ In p (mlp_variables other)) ->
    mlp_move_assign true this this st = Ok (this, this, st) /\
    exists m' old st', mlp_move_assign false this other st = Ok (m', old, st') /\
      mlp_variables m' = mlp_variables other /\ m_scope m' = m_scope other /\ m_nin m' = m_nin other /\ m_nout m' = m_nout other /\ mlp_variables old = [] /\
      (forall p, In p (mlp_variables this) -> deref st' p = UB) /\ (forall p, ~ In p (mlp_variables this) -> deref st' p = deref st p) /\
      (forall p, In p (mlp_variables m') -> deref st' p = deref st p) /\
      output_value N same fresh use env m' input in_shape = output_value N same fresh use env other input in_shape.
Proof.
  intros T N same fresh use env this other st input s Ha Hn Hd. split; [reflexivity|]. unfold mlp_move_assign, mlp_delete.
  destruct (free_all_ok _ st Ha Hn) as (st' & E & _ & H1 & H2). rewrite E. cbn [bind]. do 3 eexists. split; [reflexivity|].
  do 5 (split; [reflexivity|]). split; [exact H2|]. split; [exact H1|]. split; [|reflexivity].
  intros p Hp. apply H1. intros H. exact (Hd p H Hp).
Qed.

(** Moving an rbm: the new one has new variables with what the old ones held. Findings: the
    size of its hidden layer is not moved, get_noutput of it is never set; the old one still
    returns its variables, which have no tensor any more. *)
Lemma C45_rbm_move_lemma :
  forall (T : Type) (r : rbm) w hb vb (st : @store T), rbm_variables r = [Some w; Some hb; Some vb] -> alive st [w; hb; vb] ->
    exists r' old st' w' hb' vb', rbm_move r st = Ok (r', old, st', [Some w; Some hb; Some vb]) /\ rbm_variables r' = [Some w'; Some hb'; Some vb'] /\
      copied st st' [w; hb; vb] [w'; hb'; vb'] /\ r_scope r' = r_scope r /\ r_nin r' = r_nin r /\ r_nhidden r' = None /\
      rbm_variables old = rbm_variables r.
Proof.
  intros T r w hb vb st Hv Ha. unfold rbm_move. destruct (rbm_copy_ok (r_scope r) None r w hb vb st Hv Ha) as (w' & hb' & vb' & st' & E & C).
  rewrite E. cbn [bind fst snd]. rewrite Hv. do 6 eexists. split; [reflexivity|]. split; [reflexivity|]. split; [exact C|]. split; [reflexivity|]. split; [reflexivity|]. split; [reflexivity|]. exact Hv.
Qed.
(** Finding: move-assigning one rbm to another does nothing at all, and move-assigning an rbm
    to itself deletes its parameters and then follows null pointers. *)
Lemma C45_rbm_move_assign_refuted_lemma :
  (forall (T : Type) (this other : rbm) (st : @store T), rbm_move_assign false this other st = Ok (this, other, st, [])) /\
  (forall (T : Type) (r : rbm) w hb vb (st : @store T), rbm_variables r = [Some w; Some hb; Some vb] -> NoDup [w; hb; vb] -> alive st [w; hb; vb] ->
     rbm_move_assign true r r st = UB).
Proof.
  split; [reflexivity|]. intros T r w hb vb st Hv Hn Ha. destruct (free_all_ok _ st Ha Hn) as (st' & E & _).
  pose proof (rbms_free [r] [w; hb; vb] st) as X. cbn [flat_map map rbms_delete] in X. rewrite app_nil_r in X. specialize (X Hv). rewrite E in X.
  unfold rbm_move_assign. destruct (rbm_delete r st) as [s1| | |]; cbn [bind] in *; try discriminate. reflexivity.
Qed.

(** Finding: assigning one db_net to another, by copy or by move, deletes all parameters of the
    target, the output layer's too, and gives it the rbm layers of the source, copied or taken
    over, but no output layer: prop_up on an input of the right shape and get_variables then
    follow a null pointer. After a move the source has no rbm layers and keeps its output layer. *)
Lemma C45_db_net_assign_refuted_lemma :
  forall same (this other : db_net) ps (st : @store R),
    db_variables this = Ok (map Some ps) -> alive st ps -> NoDup ps ->
    Forall (rbm_alive st) (d_layers other) -> (forall p, In (Some p) (flat_map rbm_variables (d_layers other)) -> ~ In p ps) ->
    db_assign true this this st = Ok (this, st) /\ db_move_assign true this this st = Ok (this, this, st) /\
    (exists d' st', db_assign false this other st = Ok (d', st') /\ length (d_layers d') = length (d_layers other) /\
       d_nin d' = d_nin other /\ d_nout d' = d_nout other /\ (forall p, In p ps -> deref st' p = UB) /\
       (forall p, p < length st -> ~ In p ps -> deref st' p = deref st p) /\
       db_variables d' = UB /\ forall e r, db_prop_up Rnum same d' e [d_nin other; r] = UB) /\
    (exists d' old st', db_move_assign false this other st = Ok (d', old, st') /\ d_layers d' = d_layers other /\
       d_nin d' = d_nin other /\ d_nout d' = d_nout other /\ (forall p, In p ps -> deref st' p = UB) /\
       (forall p, ~ In p ps -> deref st' p = deref st p) /\
       db_variables d' = UB /\ (forall e r, db_prop_up Rnum same d' e [d_nin other; r] = UB) /\ d_layers old = [] /\ d_log old = d_log other).
Proof.
  intros same this other ps st Hv Ha Hn Ho Hd. split; [reflexivity|]. split; [reflexivity|].
  destruct (free_all_ok _ st Ha Hn) as (st1 & E & L & H1 & H2). unfold db_assign, db_move_assign. rewrite !(db_free this ps st Hv), E. cbn [bind].
  assert (Ho1 : Forall (rbm_alive st1) (d_layers other)).
  { rewrite Forall_forall in *. intros r Hr. destruct (Ho r Hr) as (w & hb & vb & V & A). exists w, hb, vb. split; [exact V|]. intros p Hp.
    destruct (A p Hp) as [v Ev]. exists v. rewrite H1; [exact Ev|]. apply Hd. apply in_flat_map. exists r. split; [exact Hr|]. rewrite V.
    destruct Hp as [<-|[<-|[<-|[]]]]; cbn; auto. }
  split.
  - destruct (db_copy_ok (d_scope other) (d_layers other) 0 st1 Ho1) as (rs & st' & E2 & Lr & (x & X) & A2). rewrite E2. cbn [bind fst snd].
    do 2 eexists. split; [reflexivity|]. cbn [d_layers d_nin d_nout d_log db_variables]. do 3 (split; [auto|]).
    assert (Old : forall p, p < length st -> deref st' p = deref st1 p).
    { intros p Hp. rewrite X. unfold deref. rewrite nth_error_app1 by lia. reflexivity. }
    split. { intros p Hp. destruct (Ha p Hp) as [v Ev]. rewrite Old by (eapply deref_lt; eauto). auto. }
    split. { intros p Hp Hq. rewrite Old by exact Hp. auto. }
    split; [reflexivity|]. intros e r. unfold db_prop_up. cbn [d_layers d_nin d_log]. rewrite (check_input_ok _ _ (compat_batch (d_nin other) r)). cbn [bind].
    destruct (db_fold_ok rs st' e A2) as [y ->]. reflexivity.
  - do 3 eexists. split; [reflexivity|]. cbn [d_layers d_nin d_nout d_log db_variables]. do 3 (split; [reflexivity|]). split; [exact H2|]. split; [exact H1|]. split; [reflexivity|].
    split; [|split; reflexivity]. intros e r. unfold db_prop_up. cbn [d_layers d_nin d_log]. rewrite (check_input_ok _ _ (compat_batch (d_nin other) r)). cbn [bind].
    destruct (db_fold_ok (d_layers other) st1 e Ho1) as [y ->]. reflexivity.
Qed.

(** Two networks of one rbm and an output layer each, one after the other in a store. *)
Lemma C45_move_nonvacuous_lemma :
  let v := Some (mkVar "" [1] (IConst 0%R) None) in
  let st := repeat v 10 : @store R in
  let d k := mkDb "n" 2 2 [mkRbm "r" 2 (Some 3) (Some k) (Some (k + 1)) (Some (k + 2))] (Some (mkFc "l" [(k + 3, k + 4)])) in
  db_variables (d 0) = Ok (map Some [0; 1; 2; 3; 4]) /\ alive st [0; 1; 2; 3; 4] /\ NoDup [0; 1; 2; 3; 4] /\
  Forall (rbm_alive st) (d_layers (d 5)) /\ (forall p, In (Some p) (flat_map rbm_variables (d_layers (d 5))) -> ~ In p [0; 1; 2; 3; 4]) /\
  let m k := mkMlp "m" 2 (Some 3) [(mkFc "l" [(k, k + 1)], mk_id)] : @mlp R in
  alive st (mlp_variables (m 0)) /\ NoDup (mlp_variables (m 0)) /\ (forall p, In p (mlp_variables (m 0)) -> ~ In p (mlp_variables (m 2))).
Proof.
  intros v st d. assert (Al : forall p, p < 10 -> exists x, deref st p = Ok x).
  { intros p Hp. unfold deref, st. rewrite nth_error_repeat by exact Hp. unfold v. eauto. }
  split; [reflexivity|]. split; [intros p Hp; apply Al; cbn in Hp; lia|]. split; [repeat constructor; cbn; lia|].
  split. { repeat constructor. exists 5, 6, 7. split; [reflexivity|]. intros p Hp. apply Al. cbn in Hp. lia. }
  split. { intros p Hp. cbn in Hp. destruct Hp as [H|[H|[H|[]]]]; injection H as <-; cbn; lia. }
  intros m. split; [intros p Hp; apply Al; cbn in Hp; lia|]. split; [repeat constructor; cbn; lia|]. cbn. lia.
Qed.
