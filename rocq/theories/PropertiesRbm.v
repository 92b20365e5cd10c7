(** Generated by tools/genprops.py from RbmLaws.v: property statements only. *)
From Coq Require Import String Reals Lra Lia.
From Verif Require Import Common CseModel CseSpec ShapeModel ShapeSpec ShapeProofs TransformSpec TransformModel TransformProofs TransformLaws FitModel FitProofs MatmulSpec MatmulModel ElemSpec ElemModel ElemProofs NumSpec RealNum ElemLaws GradModel MatrixSpec MatrixProofs LeafModel LeafProofs LeafLaws MlpSpec MlpModel MlpProofs MlpLaws MeanLaws RbmSpec RbmModel.
Local Open Scope list_scope.
From Verif Require Import RbmLaws.

(** The specification's free energy is what the name says: exp (- energy v) is the sum of
    exp (- joint energy) over all configurations of the hidden units. *)
Theorem C57_energy_meaning :
  forall (n h : nat) (W : nat -> nat -> R) (hb vb v : nat -> R),
    exp (- energy n h W hb vb v) = fold_right Rplus 0%R (map (fun c => exp (- joint n h W hb vb v c)) (configs h)) /\
    length (configs h) = 2 ^ h.
Proof. exact C57_energy_meaning_lemma. Qed.
Print Assumptions C57_energy_meaning.

(** The free energy of a batch: for every rbm as constructed, all values of its parameters and
    every node holding a batch of b visible vectors, the node that free_energy returns holds b
    values, the energies of the vectors under the rbm's parameters; its shape is [1, b] ([1] for
    one vector). *)
Theorem C57_free_energy :
  forall (of_nat : nat -> R) same fresh use (env : nat -> tens R) (n h b : nat) scope st m st',
    0 < n -> 0 < h -> 0 < b ->
    rbm_new Rnum of_nat n h scope st = (m, st') ->
    exists w hb vb, rbm_variables m = [Some w; Some hb; Some vb] /\
    (initialized env st' w -> initialized env st' hb -> initialized env st' vb ->
      forall e t, eval Rnum fresh use env e = Ok t -> matrix n b t ->
      exists e' t', rbm_free_energy Rnum same m e = Ok e' /\ eval Rnum fresh use env e' = Ok t' /\
        fst t' = (if b =? 1 then [1] else [1; b]) /\ length (snd t') = b /\
        forall y, y < b -> nth y (snd t') 0%R =
          energy n h (entry 0%R h (env w)) (fun j => nth j (snd (env hb)) 0%R) (fun q => nth q (snd (env vb)) 0%R) (fun q => entry 0%R n t q y)).
Proof. exact C57_free_energy_lemma. Qed.
Print Assumptions C57_free_energy.

(** The cost whose gradients train follows: the mean energy of the input minus that of the
    chain's end. *)
Theorem C57_cost :
  forall (of_nat : nat -> R) same fresh use (env : nat -> tens R) (n h b b' : nat) scope st m st',
    0 < n -> 0 < h -> 0 < b -> 0 < b' ->
    rbm_new Rnum of_nat n h scope st = (m, st') ->
    exists w hb vb, rbm_variables m = [Some w; Some hb; Some vb] /\
    (initialized env st' w -> initialized env st' hb -> initialized env st' vb ->
      forall input t chain tc, eval Rnum fresh use env input = Ok t -> matrix n b t -> eval Rnum fresh use env chain = Ok tc -> matrix n b' tc ->
      let en := energy n h (entry 0%R h (env w)) (fun j => nth j (snd (env hb)) 0%R) (fun q => nth q (snd (env vb)) 0%R) in
      rbm_cost_value Rnum fresh use INR same m env input chain =
        Ok ([1], [(mean b (fun y => en (fun q => entry 0 n t q y)) - mean b' (fun y => en (fun q => entry 0 n tc q y)))%R])).
Proof. exact C57_cost_lemma. Qed.
Print Assumptions C57_cost.

(** The cost reported with persistent chains, as it is computed: n times the mean logarithm of
    the logistic function of the energy difference to x', where x is the rounded input and x'
    is 1 - x in unit 0 and -x in all other units. *)
Theorem C57_pseudo_likelihood :
  forall (of_nat : nat -> R) same fresh use (env : nat -> tens R) (n h b : nat) scope st m st',
    (forall x y, same x y = true -> x = y) ->
    0 < n -> 0 < h -> 0 < b ->
    rbm_new Rnum of_nat n h scope st = (m, st') ->
    exists w hb vb, rbm_variables m = [Some w; Some hb; Some vb] /\
    (initialized env st' w -> initialized env st' hb -> initialized env st' vb ->
      forall e t, nonconst e -> eval Rnum fresh use env e = Ok t -> matrix n b t ->
      let en := energy n h (entry 0%R h (env w)) (fun j => nth j (snd (env hb)) 0%R) (fun q => nth q (snd (env vb)) 0%R) in
      let x y q := Rround (entry 0%R n t q y) in
      let x' y q := (if q =? 0 then 1 - x y q else - x y q)%R in
      rbm_pseudo_cost_value Rnum fresh use INR same m env e [n; b] =
        Ok ([1], [mean b (fun y => INR n * ln (logistic (en (x' y) - en (x y))))%R])).
Proof. exact C57_pseudo_likelihood_lemma. Qed.
Print Assumptions C57_pseudo_likelihood.

(** So it is the pseudo-likelihood of flipping unit 0 if all other units of all samples round
    to zero. *)
Theorem C57_pseudo_likelihood_flip :
  forall (of_nat : nat -> R) same fresh use (env : nat -> tens R) (n h b : nat) scope st m st',
    (forall x y, same x y = true -> x = y) ->
    0 < n -> 0 < h -> 0 < b ->
    rbm_new Rnum of_nat n h scope st = (m, st') ->
    exists w hb vb, rbm_variables m = [Some w; Some hb; Some vb] /\
    (initialized env st' w -> initialized env st' hb -> initialized env st' vb ->
      forall e t, nonconst e -> eval Rnum fresh use env e = Ok t -> matrix n b t ->
      let en := energy n h (entry 0%R h (env w)) (fun j => nth j (snd (env hb)) 0%R) (fun q => nth q (snd (env vb)) 0%R) in
      let x y q := Rround (entry 0%R n t q y) in
      (forall q y, 0 < q -> q < n -> y < b -> x y q = 0%R) ->
      rbm_pseudo_cost_value Rnum fresh use INR same m env e [n; b] =
        Ok ([1], [mean b (fun y => INR n * ln (logistic (en (flip0 (x y)) - en (x y))))%R])).
Proof. exact C57_pseudo_likelihood_flip_lemma. Qed.
Print Assumptions C57_pseudo_likelihood_flip.

(** Finding: otherwise it is not. With two visible units, one hidden one, weights and hidden
    bias 0, visible biases 0 and 1 and the sample (0, 1), flipping unit 0 changes nothing, but
    the cost is not 2 ln (1/2). *)
Theorem C57_pseudo_likelihood_refuted :
  exists (env : nat -> tens R) (m : rbm) (st : store),
    rbm_new Rnum INR 2 1 "r" [] = (m, st) /\ rbm_variables m = [Some 0; Some 1; Some 2] /\
    initialized env st 0 /\ initialized env st 1 /\ initialized env st 2 /\ env 3 = ([2; 1], [0%R; 1%R]) /\
    let en := energy 2 1 (entry 0%R 1 (env 0)) (fun j => nth j (snd (env 1)) 0%R) (fun q => nth q (snd (env 2)) 0%R) in
    let x q := nth q [0%R; 1%R] 0%R in
    (INR 2 * ln (logistic (en (flip0 x) - en x)))%R = (2 * ln (1 / 2))%R /\
    forall same fresh use, (forall a b, same a b = true -> a = b) ->
      exists c, rbm_pseudo_cost_value Rnum fresh use INR same m env (EVar 3) [2; 1] = Ok ([1], [c]) /\ c <> (2 * ln (1 / 2))%R.
Proof. exact C57_pseudo_likelihood_refuted_lemma. Qed.
Print Assumptions C57_pseudo_likelihood_refuted.

(** The cost reported without a persistent chain: the mean log-likelihood of the input under
    the visible distribution. *)
Theorem C57_reconstruction :
  forall same fresh use (env : nat -> tens R) (n b : nat) input t visible tv,
    (forall x y, same x y = true -> x = y) -> nonconst input -> nonconst visible ->
    eval Rnum fresh use env input = Ok t -> matrix n b t -> eval Rnum fresh use env visible = Ok tv -> matrix n b tv ->
    rbm_reconstruction_cost_value Rnum fresh use INR same env input visible =
      Ok ([1], [mean b (fun y => loglik n (fun q => entry 0%R n t q y) (fun q => entry 0%R n tv q y))]).
Proof. exact C57_reconstruction_lemma. Qed.
Print Assumptions C57_reconstruction.

(** Finding: it is not negated. For binary inputs and probabilities strictly between 0 and 1
    it is at most 0, and it grows as the probabilities get closer to the input: lower is worse. *)
Theorem C57_reconstruction_sign :
  forall (n b : nat) (x p p' : nat -> nat -> R), 0 < b ->
    (forall y q, y < b -> q < n -> x y q = 0%R \/ x y q = 1%R) ->
    (forall y q, y < b -> q < n -> (0 < p y q < 1)%R /\ (0 < p' y q < 1)%R /\ (Rabs (x y q - p' y q) <= Rabs (x y q - p y q))%R) ->
    (mean b (fun y => loglik n (x y) (p y)) <= mean b (fun y => loglik n (x y) (p' y)) <= 0)%R.
Proof. exact C57_reconstruction_sign_lemma. Qed.
Print Assumptions C57_reconstruction_sign.

(** Hypotheses met: the rbm of the refutation above, with a batch of two samples. *)
Example C57_nonvacuous :
  exists (env : nat -> tens R) (m : rbm) (st : store),
    rbm_new Rnum INR 2 1 "r" [] = (m, st) /\ rbm_variables m = [Some 0; Some 1; Some 2] /\
    initialized env st 0 /\ initialized env st 1 /\ initialized env st 2 /\
    eval Rnum (fun _ => 0%R) false env (EVar 3) = Ok ([2; 2], [0%R; 1%R; 1%R; 0%R]) /\
    matrix 2 2 ([2; 2], [0%R; 1%R; 1%R; 0%R]) /\ nonconst (EVar 3).
Proof. exact C57_nonvacuous_lemma. Qed.
