(** Generated by tools/genprops.py from RbmProbLaws.v: property statements only. *)
From Coq Require Import String Reals Lra Lia.
From Verif Require Import Common CseModel CseSpec ShapeModel MatmulSpec ElemModel RealNum GradModel MatrixSpec MatrixProofs MlpModel MlpLaws RbmSpec RbmLaws RbmCalc.
From Verif Require NetProofs.
Local Open Scope list_scope.
From Verif Require Import RbmProbLaws.

(** The units of one layer given the other are independent: the probability of a configuration
    of hidden units given visible units v, with probability proportional to exp (- joint energy),
    is the product over the units of the probability of being on (off); likewise for the visible units. *)
Theorem C60_independent_units :
  forall (n h : nat) (W : nat -> nat -> R) (hb vb : nat -> R),
    (forall v c, In c (configs h) ->
      let weight c := exp (- joint n h W hb vb v c) in
      (weight c / fold_right Rplus 0 (map weight (configs h)) =
       Prod (fun j => let p := prob (configs h) weight (is_on j) in if is_on j c then p else 1 - p) h)%R) /\
    (forall v c, In v (configs n) ->
      let weight v := exp (- joint n h W hb vb v c) in
      (weight v / fold_right Rplus 0 (map weight (configs n)) =
       Prod (fun q => let p := prob (configs n) weight (is_on q) in if is_on q v then p else 1 - p) n)%R).
Proof. exact C60_independent_units_lemma. Qed.
Print Assumptions C60_independent_units.

(** prop_up returns, for every sample of the batch, the probabilities of the hidden units being
    1 given the visible units of the sample; prop_down those of the visible units given the
    hidden ones. *)
Theorem C60_conditional_probability :
  forall (of_nat : nat -> R) fresh use (env : nat -> tens R) (n h b : nat) scope st m st',
    0 < n -> 0 < h -> 0 < b ->
    rbm_new Rnum of_nat n h scope st = (m, st') ->
    exists w hb vb, rbm_variables m = [Some w; Some hb; Some vb] /\
    (initialized env st' w -> initialized env st' hb -> initialized env st' vb ->
      let jointly := joint n h (entry 0%R h (env w)) (fun j => nth j (snd (env hb)) 0%R) (fun q => nth q (snd (env vb)) 0%R) in
      (forall e t, eval Rnum fresh use env e = Ok t -> matrix n b t ->
         exists e' t', rbm_prop_up Rnum m e = Ok e' /\ eval Rnum fresh use env e' = Ok t' /\ matrix h b t' /\
           forall j y, j < h -> y < b -> entry 0%R h t' j y = prob (configs h) (fun c => exp (- jointly (fun q => entry 0%R n t q y) c)) (is_on j)) /\
      (forall e t, eval Rnum fresh use env e = Ok t -> matrix h b t ->
         exists e' t', rbm_prop_down Rnum m e = Ok e' /\ eval Rnum fresh use env e' = Ok t' /\ matrix n b t' /\
           forall q y, q < n -> y < b -> entry 0%R n t' q y = prob (configs n) (fun v => exp (- jointly v (fun j => entry 0%R h t j y))) (is_on q))).
Proof. exact C60_conditional_probability_lemma. Qed.
Print Assumptions C60_conditional_probability.
