(** The biases of the last layer under fine tuning. *)
From Coq Require Import String Reals Lra Lia Permutation.
From Verif Require Import Common ShapeModel MatmulSpec ElemModel NumSpec RealNum GradModel GradSpec GradProofs MatrixSpec MatrixProofs MlpSpec MlpModel MlpProofs MlpLaws CopyLaws NetSpec NetProofs RbmTrainProofs RbmSpec DbSpec DbNet DbCalc DbStep.
Local Open Scope list_scope.
Local Open Scope R_scope.

Lemma net_app n (ls ls' : list (@layer R)) h : net_value 0 Rplus Rmult n (ls ++ ls') h = net_value 0 Rplus Rmult (out_size n ls) ls' (net_value 0 Rplus Rmult n ls h).
Proof. revert n h. induction ls as [|L ls IH]; intros n h; [reflexivity|]. cbn [app net_value out_size]. apply IH. Qed.
Lemma layers_app (env : nat -> tens R) hid c w b P gs g : length P = (2 * length hid)%nat -> length gs = length hid ->
  layers_of Rnum env (P ++ [w; b]) (hid ++ [c]) (gs ++ [g]) = layers_of Rnum env P hid gs ++ [mkLayer c (entry 0 c (env w)) (fun x => nth x (snd (env b)) 0) g].
Proof.
  revert P gs. induction hid as [|h hid IH]; intros P gs LP Lg.
  - destruct P; [|discriminate]. destruct gs; [|discriminate]. reflexivity.
  - destruct P as [|w0 [|b0 P]]; [discriminate|cbn in LP; lia|]. destruct gs as [|g0 gs]; [discriminate|]. cbn [app layers_of]. f_equal. apply IH; cbn in *; lia.
Qed.
Lemma nth_set_elem (env : nat -> tens R) v k x j : (k < length (snd (env v)))%nat -> (j < length (snd (env v)))%nat -> nth j (snd (set_elem env v k x v)) 0 = if (j =? k)%nat then x else nth j (snd (env v)) 0.
Proof.
  intros Hk Hj. unfold set_elem. rewrite Nat.eqb_refl. cbn [snd]. destruct (snd (env v)) as [|a [|b l]] eqn:E.
  - cbn in Hk. lia.
  - cbn in Hk, Hj. assert (k = 0%nat) by lia. assert (j = 0%nat) by lia. subst. reflexivity.
  - set (L := a :: b :: l) in *. destruct (Nat.eqb_spec j k) as [->|Ne].
    + apply nth_error_nth. now apply nth_error_set_nth_eq.
    + unfold L in *. apply nth_error_nth. rewrite nth_error_set_nth_neq by auto. apply nth_error_nth'. exact Hj.
Qed.

Section B.
Context (n b : nat) (hid : list nat) (c : nat) (vars P : list nat) (w bo : nat) (st' : @store R) (env : nat -> tens R).
Context (LP : length P = (2 * length hid)%nat) (HL : forall env, belief_layers env vars (hid ++ [c]) = layers_of Rnum env (P ++ [w; bo]) (hid ++ [c]) (db_gs hid)).
Context (Nb : ~ In bo P) (Nw : w <> bo) (Lb : length (snd (env bo)) = c) (Hc : (0 < c)%nat).
Lemma logit_last e t i : logit e vars (hid ++ [c]) n t i =
  Sum (fun q => net_value 0 Rplus Rmult n (layers_of Rnum e P hid (map (fun _ => logistic) hid)) (entry 0 n t) q (i / c) * entry 0 c (e w) (i mod c) q) (out_size n (layers_of Rnum e P hid (map (fun _ => logistic) hid)))
  + nth (i mod c) (snd (e bo)) 0.
Proof.
  unfold logit. rewrite last_last. cbv zeta. rewrite HL. unfold db_gs. rewrite layers_app by (auto; apply map_length). rewrite net_app. cbn [net_value size weights biases activation]. reflexivity.
Qed.
Lemma logit_bias t k x i : (k < c)%nat -> logit (set_elem env bo k x) vars (hid ++ [c]) n t i = logit env vars (hid ++ [c]) n t i + (if (i mod c =? k)%nat then x - nth k (snd (env bo)) 0 else 0).
Proof.
  intros Hk. assert (Hm : (i mod c < c)%nat) by (apply Nat.mod_upper_bound; lia). rewrite !logit_last. rewrite (layers_env env (set_elem env bo k x)).
  2: { intros v Hv. unfold set_elem. destruct (Nat.eqb_spec v bo) as [->|]; [contradiction|reflexivity]. }
  assert (Ew : set_elem env bo k x w = env w) by (unfold set_elem; now rewrite (proj2 (Nat.eqb_neq w bo) Nw)). rewrite Ew. rewrite nth_set_elem by (rewrite Lb; auto).
  destruct (Nat.eqb_spec (i mod c) k) as [->|]; ring.
Qed.
Lemma bias_slope t k i D : (k < c)%nat -> derivable_pt_lim (fun x => logit (set_elem env bo k x) vars (hid ++ [c]) n t i) (nth k (snd (env bo)) 0) D -> D = if (i mod c =? k)%nat then 1 else 0.
Proof.
  intros Hk H. eapply uniqueness_limite; [exact H|]. apply (lim_ext (fun x => logit env vars (hid ++ [c]) n t i + (if (i mod c =? k)%nat then x - nth k (snd (env bo)) 0 else 0))); [intros x; now rewrite logit_bias|].
  destruct (i mod c =? k)%nat.
  - eapply lim_val; [|apply derivable_pt_lim_plus; [apply derivable_pt_lim_const|apply derivable_pt_lim_minus; [apply derivable_pt_lim_id|apply derivable_pt_lim_const]]]. ring.
  - eapply lim_val; [|apply derivable_pt_lim_plus; apply derivable_pt_lim_const]. ring.
Qed.
Lemma bias_sum (s : nat -> R) (D : nat -> R) k m : (k < c)%nat -> m = (c * b)%nat -> (1 < m)%nat -> (forall i, (i < m)%nat -> s i < 1) -> (forall i, (i < m)%nat -> D i = if (i mod c =? k)%nat then 1 else 0) ->
  Sum (fun i => (s i - 1) / INR m * D i) m < 0.
Proof.
  intros Hk Em Hm H1 HD. assert (Nr : 0 < INR m) by (apply lt_0_INR; lia).
  assert (G : forall M, (M <= m)%nat -> Sum (fun i => (s i - 1) / INR m * D i) M <= 0 /\ ((k < M)%nat -> Sum (fun i => (s i - 1) / INR m * D i) M < 0)).
  { induction M as [|M IH]; intros HM; [split; [cbn; lra|lia]|]. destruct IH as [I1 I2]; [lia|]. cbn [sumn].
    assert (Q : (s M - 1) / INR m < 0) by (apply (Rmult_lt_reg_r (INR m)); [exact Nr|]; unfold Rdiv; rewrite Rmult_assoc, Rinv_l by lra; specialize (H1 M ltac:(lia)); lra).
    rewrite (HD M) by lia. split.
    - destruct (M mod c =? k)%nat; lra.
    - intros HkM. destruct (Nat.eq_dec k M) as [<-|Ne]; [rewrite Nat.mod_small, Nat.eqb_refl by exact Hk; lra|]. specialize (I2 ltac:(lia)). destruct (M mod c =? k)%nat; lra. }
  apply (G m); [lia|]. assert (0 < b)%nat by (destruct b; lia). nia.
Qed.
End B.
