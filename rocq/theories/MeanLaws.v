(** C53: reduce_mean, and the node that turns a shape into numbers. *)
From Coq Require Import String ZArith Reals Lia Lra.
From Verif Require Import Common ShapeModel ShapeSpec ShapeProofs TransformModel TransformSpec TransformProofs TransformLaws MatmulModel ElemSpec ElemModel ElemProofs GradModel RealNum CseModel CseSpec CseProofs CseGraphProofs CseFullProofs CseValueProofs CseLaws.

Section Mean.
Context {T : Type} (N : num T) (fresh : nat -> T) (strassen_on : bool) (of_nat : nat -> T).
Notation sem := (sem N fresh strassen_on of_nat).

Local Notation one x := (@cons (tens T) x (@nil (tens T))).
Local Notation two x y := (@cons (tens T) x (@cons (tens T) y (@nil (tens T)))).
Lemma size_all s d : sem (KSize None) (one (s, d)) = Ok ([1], [of_nat (n_elems s)]).
Proof. reflexivity. Qed.
Lemma size_axis i s d : i < length s -> sem (KSize (Some i)) (one (s, d)) = Ok ([1], [of_nat (nth i s 0)]).
Proof.
  intros H. cbn [sem]. apply forward_fresh; [reflexivity|reflexivity|]. unfold extract. cbn [map rd nth_error bind fst snd length Nat.ltb Nat.leb].
  unfold for_. cbn [forloop rd nth_error bind]. destruct (nth_error s i) as [x|] eqn:E; [|apply nth_error_None in E; lia].
  rewrite (nth_error_nth s i 0 E). replace (rd s i) with (Ok x) by (unfold rd; now rewrite E). reflexivity.
Qed.
Lemma sum_all s d z : full (s, d) -> sem (KSum None) (one (s, d)) = Ok ([1], [fold1 (n_add N) z d]).
Proof.
  intros [F L]. cbn [sem fst snd] in *. apply forward_fresh; [reflexivity|reflexivity|]. cbn [map]. unfold forward1. cbn [rd nth_error bind fst snd].
  apply C18_compress_all_lemma; auto.
Qed.
Lemma sum_axis i s d z o : full (s, d) -> i < length s -> compress_shape i s = Ok o ->
  exists e, sem (KSum (Some i)) (one (s, d)) = Ok (o, e) /\ full (o, e) /\
    forall c, in_bounds (set_nth i 1 s) c -> nth_error e (offset (set_nth i 1 s) c) = Some (fold1 (n_add N) z (along z s d i c)).
Proof.
  intros [F L] Hi Ho. cbn [fst snd] in *.
  destruct (C18_compress_folds_axis_lemma T (n_add N) z s o i d (map fresh (seq 0 (n_elems o))) F Hi Ho L) as (e & E & Le & He). { now rewrite map_length, seq_length. }
  assert (Fo : is_fully_defined o = true).
  { rewrite compress_shape_reduced in Ho by (try apply is_fully_defined_iff; auto). injection Ho as <-. apply is_fully_defined_iff, reduced_defined; auto. now apply is_fully_defined_iff. }
  exists e. split; [|split; [split; auto|auto]]. cbn [sem]. apply forward_fresh.
  - unfold shaper1. cbn [map rd nth_error bind fst]. exact Ho.
  - exact Fo.
  - unfold forward1. cbn [map rd nth_error bind fst snd]. exact E.
Qed.
Lemma broadcast_self (l : list T) n : length l = n -> broadcast n l = l.
Proof. intros <-. destruct l as [|x [|y l]]; reflexivity. Qed.
Lemma map2_repeat (f : T -> T -> T) l y : map2 f l (repeat y (length l)) = map (fun x => f x y) l.
Proof. induction l as [|x l IH]; cbn; congruence. Qed.
Lemma div_scalar o e y : full (o, e) -> sem (KBin BDiv) (two (o, e) ([1], [y])) = Ok (if n_elems o =? 1 then [1] else o, map (fun x => n_div N x y) e).
Proof.
  intros F.
  destruct (binary_ok fresh (bop_lambda N BDiv) (o, e) ([1], [y])) as [H _]; [exact F|split; reflexivity|].
  etransitivity; [apply H; right; left; reflexivity|]. destruct F as [_ L]. cbn [fst snd] in *. unfold bshape. change (n_elems [1] =? 1) with true. cbn iota.
  rewrite ushape_n. rewrite broadcast_self by auto. cbn [broadcast]. unfold ushape. rewrite <- L, map2_repeat. reflexivity.
Qed.
End Mean.

(** Without an axis: the node that reduce_mean returns after any history has the shape [1] and
    the sum of all elements divided by their number; nothing else changes. *)
Lemma C53_mean_lemma :
  forall (T : Type) (N : num T) (fresh : nat -> T) (strassen_on : bool) (of_nat : nat -> T) (show : T -> string)
    (cmp_of : string -> T -> T -> bool) (pick : list nat -> option nat) (hs : list hop) (g : graph)
    (a : nat) (g' : graph) (n : nat) (env : nat -> tens T) (s : shape) (d : list T),
    exact_printing show -> picks pick ->
    Forall (proper cmp_of) hs -> run N show pick [] hs = Ok g ->
    alive_at g a = true -> (forall k, full (env k)) ->
    gvalue N fresh strassen_on of_nat env g a = Ok (s, d) ->
    make_mean N show pick g None a = (g', n) ->
    alive_at g' n = true /\
    (forall m, m < length g -> nth_error g' m = nth_error g m /\ gvalue N fresh strassen_on of_nat env g' m = gvalue N fresh strassen_on of_nat env g m) /\
    length d = n_elems s /\ 0 < length d /\
    gvalue N fresh strassen_on of_nat env g' n = Ok ([1], [n_div N (fold1 (n_add N) (n_zero N) d) (of_nat (length d))]).
Proof.
  intros T N fresh strassen_on of_nat show cmp_of pick hs g a g' n env s d Hs Hp Fh Hr Aa Hf Va E.
  assert (G : gok N show cmp_of g) by (apply (run_ok N fresh strassen_on of_nat show cmp_of Hs pick Hp hs [] g); auto; intros [|m] nd H; discriminate).
  destruct (make_mean_structure N fresh strassen_on of_nat show cmp_of Hs pick Hp g None a g' n G Aa E) as (_ & (tl & ET) & Al).
  assert (F : full (s, d)) by (eapply gvalue_full; eauto).
  split; [exact Al|]. split. { intros m Hm. rewrite ET. split; [now apply nth_error_app1|now apply gvalue_app]. }
  pose proof F as [F1 F2]. cbn [fst snd] in *. split; [exact F2|]. split. { rewrite F2. apply n_elems_pos. now apply is_fully_defined_iff. }
  destruct (make_mean_value N fresh strassen_on of_nat show cmp_of Hs pick Hp env g None a g' n (s, d) G Aa E Va) as [V|[V|V]].
  - rewrite V, (sum_all N fresh strassen_on of_nat s d (n_zero N) F). cbn [bind]. rewrite size_all. cbn [bind]. rewrite div_scalar by (split; reflexivity).
    cbn [map]. now rewrite F2.
  - exfalso. apply (V _ (sum_all N fresh strassen_on of_nat s d (n_zero N) F)).
  - exfalso. apply (V _ (size_all N fresh strassen_on of_nat s d)).
Qed.

(** With an axis below the rank: every element of the result is the sum of the elements along
    the axis divided by the axis' size; the shape is that of reduce_sum, or [1] if that has a
    single element. *)
Lemma C53_mean_axis_lemma :
  forall (T : Type) (N : num T) (fresh : nat -> T) (strassen_on : bool) (of_nat : nat -> T) (show : T -> string)
    (cmp_of : string -> T -> T -> bool) (pick : list nat -> option nat) (hs : list hop) (g : graph)
    (a : nat) (i : nat) (g' : graph) (n : nat) (env : nat -> tens T) (s : shape) (d : list T),
    exact_printing show -> picks pick ->
    Forall (proper cmp_of) hs -> run N show pick [] hs = Ok g ->
    alive_at g a = true -> (forall k, full (env k)) ->
    gvalue N fresh strassen_on of_nat env g a = Ok (s, d) -> i < length s ->
    make_mean N show pick g (Some i) a = (g', n) ->
    alive_at g' n = true /\
    (forall m, m < length g -> nth_error g' m = nth_error g m /\ gvalue N fresh strassen_on of_nat env g' m = gvalue N fresh strassen_on of_nat env g m) /\
    exists o e, compress_shape i s = Ok o /\
      gvalue N fresh strassen_on of_nat env g' n = Ok (if n_elems o =? 1 then [1] else o, e) /\ length e = n_elems o /\
      forall c, in_bounds (set_nth i 1 s) c ->
        nth_error e (offset (set_nth i 1 s) c) =
          Some (n_div N (fold1 (n_add N) (n_zero N) (along (n_zero N) s d i c)) (of_nat (length (along (n_zero N) s d i c)))).
Proof.
  intros T N fresh strassen_on of_nat show cmp_of pick hs g a i g' n env s d Hs Hp Fh Hr Aa Hf Va Hi E.
  assert (G : gok N show cmp_of g) by (apply (run_ok N fresh strassen_on of_nat show cmp_of Hs pick Hp hs [] g); auto; intros [|m] nd H; discriminate).
  destruct (make_mean_structure N fresh strassen_on of_nat show cmp_of Hs pick Hp g (Some i) a g' n G Aa E) as (_ & (tl & ET) & Al).
  assert (F : full (s, d)) by (eapply gvalue_full; eauto).
  split; [exact Al|]. split. { intros m Hm. rewrite ET. split; [now apply nth_error_app1|now apply gvalue_app]. }
  pose proof F as [F1 F2]. cbn [fst snd] in *.
  assert (Ho : exists o, compress_shape i s = Ok o). { rewrite compress_shape_reduced by (try apply is_fully_defined_iff; auto). eauto. }
  destruct Ho as [o Ho]. destruct (sum_axis N fresh strassen_on of_nat i s d (n_zero N) o F Hi Ho) as (e & Es & Fe & He).
  exists o. eexists. split; [exact Ho|].
  destruct (make_mean_value N fresh strassen_on of_nat show cmp_of Hs pick Hp env g (Some i) a g' n (s, d) G Aa E Va) as [V|[V|V]].
  - rewrite V, Es. cbn [bind]. rewrite size_axis by auto. cbn [bind]. rewrite div_scalar by auto. split; [reflexivity|]. destruct Fe as [_ Fe]. cbn [fst snd] in *.
    rewrite map_length. split; [exact Fe|]. intros c Hc. rewrite nth_error_map, He by auto. cbn [option_map]. unfold along at 3. rewrite map_length, seq_length. reflexivity.
  - contradiction (V _ Es).
  - contradiction (V _ (size_axis N fresh strassen_on of_nat i s d Hi)).
Qed.

(** Over the real numbers the first is the arithmetic mean. *)
Lemma C53_arithmetic_mean_lemma :
  forall (d : list R), d <> nil ->
    n_div Rnum (fold1 (n_add Rnum) (n_zero Rnum) d) (INR (length d)) = (fold_right Rplus 0 d / INR (length d))%R.
Proof.
  intros d H. cbn [n_div n_add n_zero Rnum]. f_equal. destruct d as [|x d]; [contradiction|]. cbn [fold1 fold_right]. clear H. revert x.
  induction d as [|y d IH]; intros x; cbn [fold_left fold_right]; [lra|]. rewrite IH. lra.
Qed.

(** An axis beyond the rank, for which reduce_sum returns its argument unchanged: reduce_mean
    reads a dimension that is not there. *)
Lemma C53_axis_refuted_lemma :
  forall (T : Type) (N : num T) (fresh : nat -> T) (strassen_on : bool) (of_nat : nat -> T) (i : nat) (s : shape) (d : list T),
    full (s, d) -> length s <= i ->
    meaning N fresh strassen_on of_nat (KSum (Some i)) [(s, d)] = Ok (s, d) /\
    meaning N fresh strassen_on of_nat (KSize (Some i)) [(s, d)] = UB.
Proof.
  intros T N fresh strassen_on of_nat i s d [F L] Hi. cbn [fst snd] in *. split; cbn [meaning sem].
  - apply forward_fresh.
    + unfold shaper1. cbn [map rd nth_error bind fst]. now apply C18_reduced_shape_lemma.
    + exact F.
    + unfold forward1. cbn [map rd nth_error bind fst snd]. apply C18_compress_beyond_rank_copies_lemma; auto. now rewrite map_length, seq_length.
  - unfold forward_pass. cbn [bind]. change (is_fully_defined [1]) with true. cbn iota. unfold extract. cbn [map rd nth_error bind fst snd length Nat.ltb Nat.leb].
    unfold for_. cbn [forloop rd nth_error bind]. replace (rd s i) with (UB (A := nat)); [reflexivity|]. unfold rd. destruct (nth_error s i) eqn:E; [|reflexivity].
    assert (i < length s) by (apply nth_error_Some; congruence). lia.
Qed.

Section Extract.
Context {T : Type} (N : num T) (of_nat : nat -> T).
Lemma wr_app (pre : list T) x post v i : i = length pre -> wr (pre ++ x :: post) i v = Ok (pre ++ v :: post).
Proof.
  intros ->. unfold wr. destruct (Nat.ltb_spec (length pre) (length (pre ++ x :: post))) as [_|H]; [|rewrite app_length in H; cbn in H; lia].
  f_equal. induction pre as [|p pre IH]; cbn; [reflexivity|]. now rewrite IH.
Qed.
Lemma rd_app {A} (pre : list A) x post i : i = length pre -> rd (pre ++ x :: post) i = Ok x.
Proof. intros ->. unfold rd. now rewrite nth_error_app2, Nat.sub_diag by lia. Qed.
Lemma row_loop base (pre post : list T) r2 : base = length pre -> forall r1 k, length r2 <= k ->
  forloop (length r2) (length r1) (fun j d => x <- rd (r1 ++ r2) j ;; wr d (base + j) (of_nat x)) ((pre ++ map of_nat r1 ++ repeat (n_one N) k) ++ post) =
  Ok ((pre ++ map of_nat (r1 ++ r2) ++ repeat (n_one N) (k - length r2)) ++ post).
Proof.
  intros Hb. induction r2 as [|x r2 IH]; intros r1 k Hk; cbn [length forloop].
  - rewrite app_nil_r, Nat.sub_0_r. reflexivity.
  - rewrite rd_app by reflexivity. cbn [bind]. destruct k as [|k]; [cbn in Hk; lia|]. cbn [repeat].
    replace ((pre ++ map of_nat r1 ++ n_one N :: repeat (n_one N) k) ++ post) with ((pre ++ map of_nat r1) ++ n_one N :: repeat (n_one N) k ++ post) by now rewrite <- !app_assoc.
    rewrite wr_app by (rewrite app_length, map_length; lia). cbn [bind].
    specialize (IH (r1 ++ [x]) k). rewrite app_length in IH. cbn [length] in IH. rewrite Nat.add_1_r in IH.
    rewrite <- app_assoc in IH. cbn [app] in IH. rewrite map_app in IH. cbn [map] in IH. cbn [length] in Hk. rewrite <- !app_assoc in IH. cbn [app] in IH.
    rewrite <- !app_assoc. rewrite IH by lia. rewrite <- ?app_assoc. reflexivity.
Qed.
Lemma rows_loop shaper ncol rows : forall (ss pres : list shape) (pre : list T), length pre = length pres * ncol ->
  Forall2 (fun s r => shaper s = Ok r) ss rows -> Forall (fun r => length r <= ncol) rows -> forall more,
  forloop (length rows) (length pres) (fun i d => s <- rd (pres ++ ss ++ more) i ;; sv <- shaper s ;; for_ (length sv) (fun j d => x <- rd sv j ;; wr d (i * ncol + j) (of_nat x)) d)
    (pre ++ repeat (n_one N) (length rows * ncol)) =
  Ok (pre ++ concat (map (fun r => map of_nat r ++ repeat (n_one N) (ncol - length r)) rows)).
Proof.
  induction rows as [|r rows IH]; intros ss pres pre Lp F C more; cbn [length forloop].
  - reflexivity.
  - inversion F as [|s ? ss' ? Es Fs]; subst. inversion C; subst. cbn [app]. rewrite rd_app by reflexivity. cbn [bind]. rewrite Es. cbn [bind].
    cbn [Nat.mul]. rewrite repeat_app. unfold for_.
    pose proof (row_loop (length pres * ncol) pre (repeat (n_one N) (length rows * ncol)) r (eq_sym Lp) [] ncol) as W. cbn [length map app] in W.
    rewrite <- !app_assoc in W. rewrite W by auto. cbn [bind map concat]. rewrite <- !app_assoc.
    specialize (IH ss' (pres ++ [s]) (pre ++ map of_nat r ++ repeat (n_one N) (ncol - length r))). rewrite !app_length, map_length, repeat_length in IH. cbn [length] in IH.
    rewrite Nat.add_1_r in IH. rewrite <- !app_assoc in IH. assert (IH' := IH ltac:(lia) Fs ltac:(auto) more). rewrite <- app_assoc in IH'. cbn [app] in IH'. exact IH'.
Qed.
End Extract.

(** The node that turns shapes into numbers (shape_dep), for any function of a shape and any
    result shape [ncol] or [ncol, nrow]: row i holds the numbers of argument i's shape,
    filled up with ones; it fails if a row's numbers do not fit into the rest of the tensor. *)
Lemma C53_extract_lemma :
  forall (T : Type) (N : num T) (of_nat : nat -> T) (shaper : shape -> res (list nat)) (outs : shape) (ncol nrow : nat) (ins : list shape) (srcs : list (list T)) (dest : list T) (rows : list (list nat)),
    outs = [ncol; nrow] \/ (outs = [ncol] /\ nrow = 1) -> length dest = ncol * nrow ->
    length rows = nrow -> Forall2 (fun s r => shaper s = Ok r) (firstn nrow ins) rows -> Forall (fun r => length r <= ncol) rows ->
    extract N of_nat shaper outs ins srcs dest =
      Ok (concat (map (fun r => map of_nat r ++ repeat (n_one N) (ncol - length r)) rows)).
Proof.
  intros T N of_nat shaper outs ncol nrow ins srcs dest rows Ho Ld Lr F C. unfold extract.
  assert (E : (ncol <- rd outs 0 ;; nrow <- (if length outs <? 2 then Ok 1 else rd outs 1) ;; Ok (ncol, nrow)) = Ok (ncol, nrow)) by (destruct Ho as [->|[-> ->]]; reflexivity).
  destruct (rd outs 0) as [c| | |]; cbn [bind] in *; try discriminate E. match goal with |- bind ?q _ = _ => destruct q as [r| | |] end; cbn [bind] in *; try discriminate E.
  injection E as -> ->. subst nrow. unfold for_ at 1. rewrite Ld, Nat.mul_comm.
  pose proof (rows_loop N of_nat shaper ncol rows (firstn (length rows) ins) [] [] eq_refl F C (skipn (length rows) ins)) as W.
  cbn [app] in W. rewrite firstn_skipn in W. exact W.
Qed.

(** Numbers that do not fit: those of the last row are written behind the tensor, those of
    another row into the next row. *)
Lemma C53_extract_overflow_refuted_lemma :
  extract int_num Z.of_nat (fun s => Ok s) [2] [[3; 4; 5]] [] [0%Z; 0%Z] = UB /\
  extract int_num Z.of_nat (fun s => Ok s) [2; 2] [[3; 4; 5]; [6]] [] [0; 0; 0; 0]%Z = Ok [3; 4; 6; 1]%Z /\
  extract int_num Z.of_nat (fun s => Ok s) [2; 2] [[3; 4; 5; 7]; [6]] [] [0; 0; 0; 0]%Z = Ok [3; 4; 6; 7]%Z.
Proof. repeat split; reflexivity. Qed.

(** A history with both kinds of mean of one node and reuse of the parts. *)
Lemma C53_nonvacuous_lemma :
  let hs := [HLeaf "x"%string; HMake (KSum (Some 1)) [0]; HMean (Some 1) 0; HMean None 0; HMake (KUn UNeg) [0]] in
  Forall (proper cmps) hs /\
  exists g, run int_num show_Z pick_first [] hs = Ok g /\ length g = 8 /\
  make_mean int_num show_Z pick_first g (Some 1) 0 = (g, 3) /\ make_mean int_num show_Z pick_first g None 0 = (g, 6) /\
  fst (make_mean int_num show_Z pick_first g (Some 0) 7) <> g /\ alive_at g 7 = true /\
  let env := fun _ : nat => ([2; 3], [2; 4; 6; 8; 10; 12]%Z) in
    (forall k, full (env k)) /\ zvalue env g 7 = Ok ([2; 3], [-2; -4; -6; -8; -10; -12]%Z) /\
  zvalue env g 3 = Ok ([2], [6; 8]%Z) /\ zvalue env g 6 = Ok ([1], [7%Z]).
Proof.
  cbv zeta. split; [repeat constructor|]. eexists. split; [vm_compute; reflexivity|]. split; [vm_compute; reflexivity|]. split; [vm_compute; reflexivity|].
  split; [vm_compute; reflexivity|]. split; [vm_compute; discriminate|]. split; [vm_compute; reflexivity|]. split; [intros k; split; reflexivity|].
  repeat split; vm_compute; reflexivity.
Qed.
