(** A deep belief network as layers one after the other. *)
From Coq Require Import String Reals Lra Lia Permutation.
From Verif Require Import Common ShapeModel MatmulSpec ElemModel NumSpec RealNum GradModel GradSpec GradProofs MatrixSpec MatrixProofs MlpSpec MlpModel MlpProofs MlpLaws CopyLaws NetSpec RbmSpec DbSpec.
From Verif Require NetProofs.
Local Open Scope list_scope.
Local Open Scope nat_scope.
Notation params ls := (flat_map (fun p => fc_variables (fst p)) ls).

Definition lay (r : rbm) : fc_layer * @act R :=
  match r_w r, r_hb r with Some w, Some b => (mkFc (r_scope r) [(w, b)], mk_sigmoid Rnum) | _, _ => (mkFc "" [], mk_id) end.
Definition db_hs (hid : list nat) (c : nat) : list (nat * @act R) := map (fun h => (h, mk_sigmoid Rnum)) hid ++ [(c, mk_id)].
Definition db_gs (hid : list nat) : list (R -> R) := map (fun _ => logistic) hid ++ [fun x => x].

Lemma lay_up (same : @expr R -> @expr R -> bool) (r : rbm) w b e : r_w r = Some w -> r_hb r = Some b -> rbm_prop_up Rnum r e = (x <- fc_call Rnum same (fst (lay r)) [e] ;; snd (lay r) x).
Proof. intros H1 H2. unfold rbm_prop_up, lay. rewrite H1, H2. cbn [fst snd ptr_of bind]. rewrite fc_call_single. cbn [fc_wb bind]. unfold mk_axb, mk_mat. cbn [cview_of mk_tr bind]. reflexivity. Qed.

Definition has_ptrs (r : rbm) : Prop := exists w hb vb, r_w r = Some w /\ r_hb r = Some hb /\ r_vb r = Some vb.
Lemma fold_lay same rs e : Forall has_ptrs rs -> db_fold Rnum rs e = mlp_fold Rnum same (map lay rs) e.
Proof.
  intros H. revert e. induction H as [|r rs (w & hb & vb & H1 & H2 & _) _ IH]; intros e; [reflexivity|]. cbn [db_fold map mlp_fold].
  rewrite (lay_up same r w hb e H1 H2). destruct (lay r) as [l f]. cbn [fst snd]. destruct (fc_call Rnum same l [e]) as [x| | |]; try reflexivity. cbn [bind].
  destruct (f x) as [o| | |]; try reflexivity. cbn [bind]. apply IH.
Qed.
Lemma mlp_fold_app same ls ls' e : mlp_fold Rnum same (ls ++ ls') e = (x <- mlp_fold Rnum same ls e ;; mlp_fold Rnum same ls' x).
Proof.
  revert e. induction ls as [|[l f] ls IH]; intros e; [reflexivity|]. cbn [app mlp_fold]. destruct (fc_call Rnum same l [e]); try reflexivity. cbn [bind]. destruct (f a); try reflexivity. cbn [bind]. apply IH.
Qed.

Lemma last_cons (a : nat) l d : last (a :: l) d = last l a.
Proof. revert a d. induction l as [|b l IH]; intros a d; [reflexivity|]. change (last (a :: b :: l) d) with (last (b :: l) d). now rewrite !IH. Qed.
Lemma deref1 (l : @store R) v x y : deref (((l ++ [Some v]) ++ [x]) ++ [y]) (length l) = Ok v.
Proof. unfold deref. rewrite <- !app_assoc, nth_error_app2, Nat.sub_diag by lia. reflexivity. Qed.
Lemma deref2 (l : @store R) v x : deref ((l ++ [Some v]) ++ [x]) (length l) = Ok v.
Proof. unfold deref. rewrite <- !app_assoc, nth_error_app2, Nat.sub_diag by lia. reflexivity. Qed.
Lemma deref3 (l : @store R) v : deref (l ++ [Some v]) (length l) = Ok v.
Proof. unfold deref. rewrite nth_error_app2, Nat.sub_diag by lia. reflexivity. Qed.
(** one machine at a time *)
Lemma layers_struct of_nat scope hid : forall n level st rs m st1, db_layers_from Rnum of_nat scope n hid level st = (rs, m, st1) ->
  (exists ext, st1 = st ++ ext) /\ m = last hid n /\ length rs = length hid /\ Forall has_ptrs rs /\
  chain st1 n (map lay rs) (map (fun h => (h, mk_sigmoid Rnum)) hid) /\
  exists vs, flat_map rbm_variables rs = map Some vs /\ NoDup vs /\ (forall p, In p vs -> length st <= p < length st1) /\
    (forall w b, Permutation (vs ++ [w; b]) (params (map lay rs) ++ [w; b] ++ visible_biases (vs ++ [w; b]))) /\
    (forall env w b c, belief_layers env (vs ++ [w; b]) (hid ++ [c]) = layers_of Rnum env (params (map lay rs) ++ [w; b]) (hid ++ [c]) (db_gs hid)).
Proof.
  induction hid as [|h hid IH]; intros n level st rs m st1; cbn [db_layers_from].
  - intros [= <- <- <-]. split; [exists []; now rewrite app_nil_r|]. split; [reflexivity|]. split; [reflexivity|]. split; [constructor|]. split; [exact I|].
    exists []. split; [reflexivity|]. split; [constructor|]. split; [contradiction|]. split; [intros; reflexivity|]. reflexivity.
  - unfold rbm_new. cbn [alloc]. set (st0 := ((st ++ _) ++ _) ++ _). destruct (db_layers_from Rnum of_nat scope h hid (S level) st0) as [[rs' m'] st2] eqn:E. intros [= <- <- <-].
    destruct (IH _ _ _ _ _ _ E) as ((ext & X0) & X1 & X2 & X3 & X4 & vs & Y1 & Y2 & Y3 & Y4 & Y5).
    assert (L0 : length st0 = 3 + length st) by (unfold st0; rewrite !app_length; cbn; lia).
    assert (L1 : length (st ++ [Some (mkVar (scope ++ ":rbm_" ++ decimal level ++ "_weights") [h; n] (IUniform 0%R 0%R) None)]) = 1 + length st) by (rewrite app_length; cbn; lia).
    split; [|split; [|split; [|split; [|split]]]].
    + eexists. rewrite X0. unfold st0. rewrite <- !app_assoc. reflexivity.
    + rewrite X1. now rewrite last_cons.
    + cbn [length]. now rewrite X2.
    + constructor; [|exact X3]. do 3 eexists. cbn [r_w r_hb r_vb]. auto.
    + cbn [map chain lay r_w r_hb]. split; [reflexivity|]. split; [|exact X4].
      do 4 eexists. split; [reflexivity|]. rewrite X0. unfold st0.
      split; [apply deref_app; apply deref1|]. split; [reflexivity|]. split; [apply deref_app; apply deref2|]. reflexivity.
    + set (p0 := length st) in *. set (p1 := length (st ++ _)). set (p2 := length (_ ++ _)).
      assert (P1 : p1 = S p0) by (unfold p1; rewrite app_length; cbn; lia). assert (P2 : p2 = S (S p0)) by (unfold p2; rewrite !app_length; cbn; lia).
      exists (p0 :: p1 :: p2 :: vs). assert (Lt : length st2 = length st0 + length ext) by (rewrite X0; apply app_length).
      split; [cbn [flat_map rbm_variables r_w r_hb r_vb app map]; now rewrite Y1|]. split; [|split; [|split]].
      * constructor; [|constructor; [|constructor; [|exact Y2]]]; cbn [In]; intros Q; repeat (destruct Q as [Q|Q]; [lia|]); apply Y3 in Q; lia.
      * intros p [<-|[<-|[<-|Q]]]; try lia. apply Y3 in Q. lia.
      * intros w b. cbn [app visible_biases map lay r_w r_hb flat_map fst fc_variables fc_wb]. constructor. constructor. specialize (Y4 w b).
        match goal with |- Permutation _ (?P ++ w :: b :: p2 :: ?V) => replace (P ++ w :: b :: p2 :: V) with ((P ++ [w; b]) ++ p2 :: V) by (rewrite <- app_assoc; reflexivity) end.
        apply Permutation_cons_app. rewrite <- app_assoc. exact Y4.
      * intros env w b c. cbn [app map lay r_w r_hb flat_map fst fc_variables fc_wb]. unfold db_gs. cbn [map app layers_of].
        assert (U : belief_layers env (p0 :: p1 :: p2 :: vs ++ [w; b]) (h :: hid ++ [c]) = mkLayer h (entry 0%R h (env p0)) (fun x => nth x (snd (env p1)) 0%R) logistic :: belief_layers env (vs ++ [w; b]) (hid ++ [c])) by (destruct hid; reflexivity).
        rewrite U, Y5. reflexivity.
Qed.

Lemma chain_join (st : @store R) n ls hs ls' hs' : chain st n ls hs -> chain st (last (map fst hs) n) ls' hs' -> chain st n (ls ++ ls') (hs ++ hs').
Proof.
  revert n hs. induction ls as [|[l f] ls IH]; intros n [|[c f'] hs]; cbn [chain]; try contradiction; [auto|].
  intros (H1 & H2 & H3) H4. cbn [app chain]. split; [exact H1|]. split; [exact H2|]. apply IH; [exact H3|]. cbn [map fst] in H4. now rewrite last_cons in H4.
Qed.
Lemma hs_fst hid c : map fst (db_hs hid c) = hid ++ [c].
Proof. unfold db_hs. rewrite map_app, map_map. cbn [map fst]. now rewrite map_id. Qed.

Definition db_ls (rs : list rbm) (l : fc_layer) : list (fc_layer * @act R) := map lay rs ++ [(l, mk_id)].
Lemma db_struct of_nat n sizes scope st d st' : db_new Rnum of_nat n sizes scope st = Ok (d, st') ->
  exists hid c rs l vars, sizes = hid ++ [c] /\ d = mkDb scope n c rs (Some l) /\ db_variables d = Ok (map Some vars) /\ NoDup vars /\ length rs = length hid /\
    (forall p, In p vars -> length st <= p < length st') /\ Forall has_ptrs rs /\ chain st' n (db_ls rs l) (db_hs hid c) /\
    Permutation vars (params (db_ls rs l) ++ visible_biases vars) /\
    (forall env, belief_layers env vars sizes = layers_of Rnum env (params (db_ls rs l)) (map fst (db_hs hid c)) (db_gs hid)).
Proof.
  unfold db_new. destruct (rev sizes) as [|c hr] eqn:Er; [discriminate|].
  assert (Es : sizes = rev hr ++ [c]) by (rewrite <- (rev_involutive sizes), Er; reflexivity). set (hid := rev hr) in *.
  rewrite Es, removelast_last. destruct (db_layers_from Rnum of_nat scope n hid 0 st) as [[rs m] st1] eqn:E.
  unfold fc_new. cbn [fc_vars_from alloc]. intros [= <- <-].
  destruct (layers_struct of_nat scope hid _ _ _ _ _ _ E) as ((ext & X0) & X1 & X2 & X3 & X4 & vs & Y1 & Y2 & Y3 & Y4 & Y5).
  set (w := length st1) in *. set (b := length (st1 ++ _)). assert (Eb : b = S w) by (unfold b; rewrite app_length; cbn; lia).
  set (l := mkFc _ [(w, b)]). exists hid, c, rs, l, (vs ++ [w; b]). split; [reflexivity|]. split; [reflexivity|].
  assert (Lx : length st1 = length st + length ext) by (rewrite X0; apply app_length).
  assert (Pl : params (db_ls rs l) = params (map lay rs) ++ [w; b]) by (unfold db_ls; rewrite flat_map_app; reflexivity).
  split; [unfold db_variables; cbn [d_log d_layers]; rewrite Y1; cbn [fc_variables fc_wb l flat_map app]; now rewrite map_app|].
  split.
  { apply (Permutation_NoDup (l := w :: b :: vs)); [apply (Permutation_app_comm [w; b] vs)|]. constructor; [|constructor; [|exact Y2]]; cbn [In]; intros Q; repeat (destruct Q as [Q|Q]; [lia|]); apply Y3 in Q; unfold w in *; lia. }
  split; [exact X2|]. split.
  { intros p Q. rewrite !app_length. cbn [length]. apply in_app_iff in Q. destruct Q as [Q|[<-|[<-|[]]]]; [apply Y3 in Q|unfold w|rewrite Eb; unfold w]; lia. }
  split; [exact X3|]. split.
  { unfold db_ls, db_hs. apply chain_join.
    - rewrite <- app_assoc. now apply chain_app.
    - rewrite map_map. cbn [fst]. rewrite map_id, <- X1. cbn [chain]. split; [reflexivity|]. split; [|exact I].
      do 4 eexists. split; [reflexivity|]. split; [apply deref2|]. split; [reflexivity|]. split; [apply deref3|reflexivity]. }
  split; [rewrite Pl, <- app_assoc; apply Y4|].
  intros env. rewrite Pl, hs_fst. apply Y5.
Qed.

Lemma layers_out (st : @store R) env n ls hs gs : chain st n ls hs -> length gs = length hs -> out_size n (layers_of Rnum env (params ls) (map fst hs) gs) = last (map fst hs) n.
Proof.
  revert n hs gs. induction ls as [|[l f] ls IH]; intros n [|[c f'] hs] gs; cbn [chain]; try contradiction; [reflexivity|].
  intros (_ & (w & b & vw & vb & W1 & _) & C) L. destruct gs as [|g gs]; [discriminate|]. cbn [flat_map fst map]. assert (Ev : fc_variables l = [w; b]) by (unfold fc_variables; now rewrite W1).
  rewrite Ev. cbn [app layers_of out_size size]. rewrite IH by (auto; cbn in L; lia). now rewrite last_cons.
Qed.

Section Value.
Context (fresh : nat -> R) (use : bool) (same : @expr R -> @expr R -> bool) (of_nat : nat -> R).
Context (st' : @store R) (n b : nat) (hid : list nat) (c : nat) (rs : list rbm) (l : fc_layer) (vars : list nat).
Context (Hn : 0 < n) (Hb : 0 < b) (Hs : Forall (fun h => 0 < h) (hid ++ [c])) (C : chain st' n (db_ls rs l) (db_hs hid c)).
Context (HL : forall env, belief_layers env vars (hid ++ [c]) = layers_of Rnum env (params (db_ls rs l)) (map fst (db_hs hid c)) (db_gs hid)).

Lemma hs_pos : Forall (fun h => 0 < fst h) (db_hs hid c).
Proof. rewrite <- hs_fst in Hs. now rewrite Forall_map in Hs. Qed.
Lemma hs_point : Forall2 (fun h g => pointwise Rnum fresh use (snd h) g) (db_hs hid c) (db_gs hid).
Proof.
  destruct (C44_activations_lemma (fun _ _ => false) fresh use ltac:(discriminate)) as (A1 & _ & A2). unfold db_hs, db_gs. apply Forall2_app; [|constructor; [exact A2|constructor]].
  clear -A1. induction hid as [|h0 hid0 IH]; cbn [map]; constructor; auto.
Qed.
Lemma ring_R : exact_matmul Rnum use.
Proof. intros _. exists Ropp. exact RTheory. Qed.
Lemma gs_len : length (db_gs hid) = length (db_hs hid c).
Proof. unfold db_gs, db_hs. rewrite !app_length, !map_length. reflexivity. Qed.
Lemma logits_ok env e t : (forall p, In p (params (db_ls rs l)) -> initialized env st' p) -> eval Rnum fresh use env e = Ok t -> matrix n b t ->
  exists z tz, mlp_fold Rnum same (db_ls rs l) e = Ok z /\ eval Rnum fresh use env z = Ok tz /\ matrix c b tz /\ forall i, i < c * b -> at_ tz i = logit env vars (hid ++ [c]) n t i.
Proof.
  intros Hi He Ht. destruct (chain_value Rnum same fresh use ring_R st' env b n (db_ls rs l) (db_hs hid c) (db_gs hid) e t C Hb Hi hs_pos hs_point He Ht) as (z & tz & Z1 & Z2 & Z3 & Z4).
  rewrite (layers_out st' env n _ _ _ C gs_len), hs_fst, last_last in Z3, Z4. exists z, tz. split; [exact Z1|]. split; [exact Z2|]. split; [exact Z3|]. intros i Hi'.
  destruct (NetProofs.grid_index c b i) as (E & E1 & E2); [apply Z3|exact Hi'|]. rewrite E at 1. rewrite (NetProofs.at_entry c b) by auto. unfold logit. rewrite last_last. cbn zeta.
  rewrite HL, hs_fst. apply Z4; auto.
Qed.
End Value.
