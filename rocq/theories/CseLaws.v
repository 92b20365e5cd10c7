(** C32: an operation that returns an existing node returns one that computes the same. *)
From Coq Require Import String Ascii DecimalString DecimalZ ZArith Lia.
From Verif Require Import Common ShapeModel TransformModel MatmulModel ElemSpec ElemModel ElemProofs GradModel CseModel CseSpec CseProofs CseGraphProofs CseFullProofs CseValueProofs.
Local Open Scope string_scope.
Local Open Scope list_scope.

(** After any history of new leaves, operations and deletions, an operation on living nodes
    returns a living node and changes neither nodes nor values of nodes that are there. The
    node's value is the operation's result for the values of its arguments; for sums and
    products possibly the result for the arguments in the other order; for a negation or
    transposition of a node it may be a value that the operation turns into the argument. *)
Lemma C32_reuse_lemma :
  forall (T : Type) (N : num T) (fresh : nat -> T) (strassen_on : bool) (of_nat : nat -> T) (show : T -> string)
    (cmp_of : string -> T -> T -> bool) (pick : list nat -> option nat) (hs : list hop) (g : graph)
    (op : cop) (args : list nat) (g' : graph) (n : nat),
    exact_printing show -> picks pick ->
    Forall (proper cmp_of) hs -> run N show pick [] hs = Ok g ->
    well_named cmp_of op -> length args = arity op -> (forall a, In a args -> alive_at g a = true) ->
    (forall cap, op = KClipNorm cap -> ~ norm_node g (hd 0 args)) ->
    make N show pick g op args = (g', n) ->
    alive_at g' n = true /\
    (forall m, m < length g -> nth_error g' m = nth_error g m) /\
    forall env : nat -> tens T,
      let value := gvalue N fresh strassen_on of_nat env in
      let expected := meaning N fresh strassen_on of_nat op in
      (forall m, m < length g -> value g' m = value g m) /\
      forall ts, Forall2 (fun a t => value g a = Ok t) args ts ->
        value g' n = expected ts \/
        (commutative_op op /\ value g' n = expected (rev ts)) \/
        ((op = KUn UNeg \/ exists ax, op = KTr ax) /\
         exists t tc, ts = [t] /\ value g' n = Ok tc /\ expected [tc] = Ok t).
Proof.
  intros T N fresh strassen_on of_nat show cmp_of pick hs g op args g' n Hs Hp Fh Hr W L A NN E.
  assert (G : gok N show cmp_of g) by (apply (run_ok N fresh strassen_on of_nat show cmp_of Hs pick Hp hs [] g); auto; intros [|m] nd H; discriminate).
  destruct (make_structure N fresh strassen_on of_nat show cmp_of Hs pick Hp g op args g' n G W L A E) as (G' & (tl & ET) & Al).
  split; [exact Al|]. split; [intros m Hm; rewrite ET; now apply nth_error_app1|]. intros env value expected. split.
  { intros m Hm. unfold value. rewrite ET. now apply gvalue_app. }
  intros ts F. destruct (shortcut N show g op args) as [c|] eqn:S.
  - right. right. destruct (shortcut_spec N fresh strassen_on of_nat show cmp_of Hs g op args c G W S) as (a & nd & op' & _ & _ & _ & _ & _ & C & _ & D).
    split; [exact D|]. destruct (shortcut_value N fresh strassen_on of_nat show cmp_of Hs env g op args ts c G W S F) as (t & tc & E1 & E2 & E3).
    unfold make in E. rewrite S in E. injection E as <- <-. exists t, tc. split; [auto|split; [auto|]]. unfold expected, meaning. destruct op; try discriminate; exact E3.
  - destruct (make_value N fresh strassen_on of_nat show cmp_of Hs pick Hp env g op args ts g' n G W L A NN S E F) as [V|V]; auto.
Qed.

(** Operations other than sums, products, negation and transposition: exactly the result. *)
Lemma C32_reuse_exact_lemma :
  forall (T : Type) (N : num T) (fresh : nat -> T) (strassen_on : bool) (of_nat : nat -> T) (show : T -> string)
    (cmp_of : string -> T -> T -> bool) (pick : list nat -> option nat) (hs : list hop) (g : graph)
    (op : cop) (args : list nat) (g' : graph) (n : nat) (env : nat -> tens T) (ts : list (tens T)),
    exact_printing show -> picks pick ->
    Forall (proper cmp_of) hs -> run N show pick [] hs = Ok g ->
    well_named cmp_of op -> length args = arity op -> (forall a, In a args -> alive_at g a = true) ->
    (forall cap, op = KClipNorm cap -> ~ norm_node g (hd 0 args)) ->
    ~ commutative_op op -> op <> KUn UNeg -> (forall ax, op <> KTr ax) ->
    make N show pick g op args = (g', n) ->
    Forall2 (fun a t => gvalue N fresh strassen_on of_nat env g a = Ok t) args ts ->
    gvalue N fresh strassen_on of_nat env g' n = meaning N fresh strassen_on of_nat op ts.
Proof.
  intros T N fresh strassen_on of_nat show cmp_of pick hs g op args g' n env ts Hs Hp Fh Hr W L A NN D1 D2 D3 E F.
  destruct (C32_reuse_lemma T N fresh strassen_on of_nat show cmp_of pick hs g op args g' n Hs Hp Fh Hr W L A NN E) as (_ & _ & H).
  destruct (H env) as [_ H1]. destruct (H1 ts F) as [V|[[C _]|[[C|[ax C]] _]]]; auto; try contradiction. contradiction (D3 ax C).
Qed.

(** a + b and a * b, elementwise: the same elements in the same layout, even if the node was
    made for b + a or b * a. *)
Lemma C32_sum_product_lemma :
  forall (T : Type) (N : num T) (fresh : nat -> T) (strassen_on : bool) (of_nat : nat -> T) (show : T -> string)
    (cmp_of : string -> T -> T -> bool) (pick : list nat -> option nat) (hs : list hop) (g : graph)
    (o : bop) (a b : nat) (g' : graph) (n : nat) (env : nat -> tens T) (ta tb : tens T),
    exact_printing show -> picks pick ->
    Forall (proper cmp_of) hs -> run N show pick [] hs = Ok g ->
    o = BAdd \/ o = BMul -> (forall x y, bop_lambda N o x y = bop_lambda N o y x) ->
    alive_at g a = true -> alive_at g b = true -> (forall k, full (env k)) ->
    gvalue N fresh strassen_on of_nat env g a = Ok ta -> gvalue N fresh strassen_on of_nat env g b = Ok tb ->
    make N show pick g (KBin o) [a; b] = (g', n) ->
    same_result (gvalue N fresh strassen_on of_nat env g' n) (meaning N fresh strassen_on of_nat (KBin o) [ta; tb]).
Proof.
  intros T N fresh strassen_on of_nat show cmp_of pick hs g o a b g' n env ta tb Hs Hp Fh Hr Ho Hc Aa Ab Hf Va Vb E.
  assert (G : gok N show cmp_of g) by (apply (run_ok N fresh strassen_on of_nat show cmp_of Hs pick Hp hs [] g); auto; intros [|m] nd H; discriminate).
  assert (Ft : Forall2 (fun a t => gvalue N fresh strassen_on of_nat env g a = Ok t) [a; b] [ta; tb]) by (repeat constructor; auto).
  assert (Wn : @well_named T cmp_of (KBin o)) by exact I.
  destruct (C32_reuse_lemma T N fresh strassen_on of_nat show cmp_of pick hs g (KBin o) [a; b] g' n Hs Hp Fh Hr Wn eq_refl) as (_ & _ & H); auto.
  - intros x [<-|[<-|[]]]; auto.
  - discriminate.
  - destruct (H env) as [_ H1]. destruct (H1 _ Ft) as [V|[[_ V]|[[C|[ax C]] _]]]; try discriminate; rewrite V; [now left|].
    cbn [rev app meaning sem]. apply binary_commutes; auto; eapply gvalue_full; eauto.
Qed.

(** -(-x) is x: the same elements in the same layout as negating twice. *)
Lemma C32_double_negation_lemma :
  forall (T : Type) (N : num T) (fresh : nat -> T) (strassen_on : bool) (of_nat : nat -> T) (show : T -> string)
    (cmp_of : string -> T -> T -> bool) (pick : list nat -> option nat) (hs : list hop) (g : graph)
    (a : nat) (g' : graph) (n : nat) (env : nat -> tens T) (ta : tens T),
    exact_printing show -> picks pick ->
    Forall (proper cmp_of) hs -> run N show pick [] hs = Ok g ->
    (forall x, n_neg N (n_neg N x) = x) -> alive_at g a = true -> (forall k, full (env k)) ->
    gvalue N fresh strassen_on of_nat env g a = Ok ta ->
    make N show pick g (KUn UNeg) [a] = (g', n) ->
    same_result (gvalue N fresh strassen_on of_nat env g' n) (meaning N fresh strassen_on of_nat (KUn UNeg) [ta]).
Proof.
  intros T N fresh strassen_on of_nat show cmp_of pick hs g a g' n env ta Hs Hp Fh Hr Hn Aa Hf Va E.
  assert (G : gok N show cmp_of g) by (apply (run_ok N fresh strassen_on of_nat show cmp_of Hs pick Hp hs [] g); auto; intros [|m] nd H; discriminate).
  assert (Ft : Forall2 (fun a t => gvalue N fresh strassen_on of_nat env g a = Ok t) [a] [ta]) by (repeat constructor; auto).
  assert (Wn : @well_named T cmp_of (KUn UNeg)) by exact I.
  destruct (make_structure N fresh strassen_on of_nat show cmp_of Hs pick Hp g (KUn UNeg) [a] g' n G Wn eq_refl) as (G' & _); auto. { intros x [<-|[]]; auto. }
  destruct (C32_reuse_lemma T N fresh strassen_on of_nat show cmp_of pick hs g (KUn UNeg) [a] g' n Hs Hp Fh Hr Wn eq_refl) as (_ & _ & H); auto.
  - intros x [<-|[]]; auto.
  - discriminate.
  - destruct (H env) as [_ H1]. destruct (H1 _ Ft) as [V|[[[] _]|[_ (t & tc & [= <-] & V & S)]]]; rewrite V; [now left|].
    cbn [meaning sem] in *. apply neg_neg; auto. eapply gvalue_full; eauto.
Qed.

(** Transposing a transposed node by the same axes returns the original node, which is the
    transposed transposed tensor if the axes are below the original's rank. *)
Lemma C32_double_transpose_lemma :
  forall (T : Type) (N : num T) (fresh : nat -> T) (strassen_on : bool) (of_nat : nat -> T) (show : T -> string)
    (cmp_of : string -> T -> T -> bool) (pick : list nat -> option nat) (hs : list hop) (g : graph)
    (i j : nat) (a : nat) (g' : graph) (n : nat) (env : nat -> tens T) (ta tn : tens T),
    exact_printing show -> picks pick ->
    Forall (proper cmp_of) hs -> run N show pick [] hs = Ok g ->
    alive_at g a = true -> (forall k, full (env k)) ->
    gvalue N fresh strassen_on of_nat env g a = Ok ta ->
    make N show pick g (KTr (i, j)) [a] = (g', n) ->
    gvalue N fresh strassen_on of_nat env g' n = Ok tn -> i < length (fst tn) -> j < length (fst tn) ->
    meaning N fresh strassen_on of_nat (KTr (i, j)) [ta] = Ok tn.
Proof.
  intros T N fresh strassen_on of_nat show cmp_of pick hs g i j a g' n env ta tn Hs Hp Fh Hr Aa Hf Va E Vn Hi Hj.
  assert (G : gok N show cmp_of g) by (apply (run_ok N fresh strassen_on of_nat show cmp_of Hs pick Hp hs [] g); auto; intros [|m] nd H; discriminate).
  assert (Ft : Forall2 (fun a t => gvalue N fresh strassen_on of_nat env g a = Ok t) [a] [ta]) by (repeat constructor; auto).
  assert (Wn : @well_named T cmp_of (KTr (i, j))) by exact I.
  destruct (make_structure N fresh strassen_on of_nat show cmp_of Hs pick Hp g (KTr (i, j)) [a] g' n G Wn eq_refl) as (G' & _); auto. { intros x [<-|[]]; auto. }
  destruct (C32_reuse_lemma T N fresh strassen_on of_nat show cmp_of pick hs g (KTr (i, j)) [a] g' n Hs Hp Fh Hr Wn eq_refl) as (_ & _ & H); auto.
  - intros x [<-|[]]; auto.
  - discriminate.
  - destruct (H env) as [_ H1]. destruct (H1 _ Ft) as [V|[[[] _]|[_ (t & tc & [= <-] & V & S)]]]; [congruence|].
    assert (tc = tn) by congruence. subst tc. cbn [meaning sem] in *. apply transpose_back; auto. eapply gvalue_full; eauto.
Qed.

(** matmul with flags: the product of the arguments, each transposed (or turned back) if its
    flag is set. *)
Lemma C32_matmul_flags_lemma :
  forall (T : Type) (N : num T) (fresh : nat -> T) (strassen_on : bool) (of_nat : nat -> T) (show : T -> string)
    (cmp_of : string -> T -> T -> bool) (pick : list nat -> option nat) (hs : list hop) (g : graph)
    (tA tB : bool) (a b : nat) (g' : graph) (n : nat) (env : nat -> tens T) (ta tb : tens T),
    let value := gvalue N fresh strassen_on of_nat env in
    let transposed := fun t => meaning N fresh strassen_on of_nat (KTr (0, 1)) [t] in
    exact_printing show -> picks pick ->
    Forall (proper cmp_of) hs -> run N show pick [] hs = Ok g ->
    alive_at g a = true -> alive_at g b = true ->
    value g a = Ok ta -> value g b = Ok tb ->
    (tA = true -> exists x, transposed ta = Ok x) -> (tB = true -> exists x, transposed tb = Ok x) ->
    make_mat N show pick g tA tB a b = (g', n) ->
    alive_at g' n = true /\ (forall m, m < length g -> value g' m = value g m) /\
    exists xa xb,
      (if tA then transposed ta = Ok xa \/ transposed xa = Ok ta else xa = ta) /\
      (if tB then transposed tb = Ok xb \/ transposed xb = Ok tb else xb = tb) /\
      value g' n = meaning N fresh strassen_on of_nat (KMat false false) [xa; xb].
Proof.
  intros T N fresh strassen_on of_nat show cmp_of pick hs g tA tB a b g' n env ta tb value transposed Hs Hp Fh Hr Aa Ab Va Vb Ha Hb E.
  assert (G : gok N show cmp_of g) by (apply (run_ok N fresh strassen_on of_nat show cmp_of Hs pick Hp hs [] g); auto; intros [|m] nd H; discriminate).
  destruct (make_mat_structure N fresh strassen_on of_nat show cmp_of Hs pick Hp g tA tB a b g' n G Aa Ab E) as (_ & (tl & ET) & Al).
  split; [exact Al|]. split. { intros m Hm. unfold value. rewrite ET. now apply gvalue_app. }
  destruct (make_mat_value N fresh strassen_on of_nat show cmp_of Hs pick Hp env g tA tB a b g' n ta tb G Aa Ab E Va Vb Ha Hb) as (xa & xb & H1 & H2 & H3).
  exists xa, xb. split; [exact H1|]. split; [exact H2|]. exact H3.
Qed.

(** Nothing is made twice: a second identical call leaves the graph as it is, whatever the
    labels are. *)
Lemma C32_second_call_lemma :
  forall (T : Type) (N : num T) (show : T -> string) (pick : list nat -> option nat) (g g' : graph) (op : cop) (args : list nat) (n : nat),
    picks pick -> op <> KConst -> length args = arity op -> (forall a, In a args -> a < length g) ->
    make N show pick g op args = (g', n) -> exists m, make N show pick g' op args = (g', m).
Proof. intros T N show pick g g' op args n Hp. exact (make_twice N show pick Hp g op args g' n). Qed.

(** as_constant is never shared: it looks for a label its nodes do not have. *)
Lemma C32_as_constant_never_reused_lemma :
  forall (T : Type) (N : num T) (show : T -> string) (cmp_of : string -> T -> T -> bool) (pick : list nat -> option nat) (hs : list hop) (g : graph) (a : nat),
    exact_printing show -> picks pick -> Forall (proper cmp_of) hs -> run N show pick [] hs = Ok g ->
    snd (make N show pick g KConst [a]) = length g.
Proof.
  intros T N show cmp_of pick hs g a Hs Hp Fh Hr.
  assert (G : gok N show cmp_of g) by (apply (run_ok N (fun _ => n_zero N) false (fun _ => n_zero N) show cmp_of Hs pick Hp hs [] g); auto; intros [|m] nd H; discriminate).
  unfold make. cbn [shortcut]. unfold build. rewrite (const_never N (fun _ => n_zero N) false (fun _ => n_zero N) show cmp_of Hs pick Hp g a G). reflexivity.
Qed.

(** ---- findings ---- *)
Definition int_num : num Z :=
  {| n_zero := 0%Z; n_one := 1%Z; n_two := 2%Z; n_add := Z.add; n_sub := Z.sub; n_mul := Z.mul; n_div := Z.div; n_neg := Z.opp;
     n_abs := Z.abs; n_sin := fun x => x; n_cos := fun x => x; n_tan := fun x => x; n_exp := fun x => x; n_sqrt := Z.sqrt;
     n_round := fun x => x; n_log := fun x => x; n_pow := Z.pow; n_eqb := Z.eqb; n_ltb := Z.ltb |}.
Definition zvalue (env : nat -> tens Z) := gvalue int_num (fun _ => 0%Z) false Z.of_nat env.
Definition zmean := meaning int_num (fun _ => 0%Z) false Z.of_nat.
Definition cmps (name : string) : Z -> Z -> bool := if (name =? "eq")%string then Z.eqb else Z.ltb.

(** Scalars are printed with six digits: x + 1000001 is the node of x + 1000000. *)
Lemma C32_printing_refuted_lemma :
  exists g, run int_num show_g6 pick_first [] [HLeaf "x"; HMake (KUn (UAddR 1000000%Z)) [0]] = Ok g /\
  let '(g', n) := make int_num show_g6 pick_first g (KUn (UAddR 1000001%Z)) [0] in
  let env := fun _ => ([1], [5%Z]) in
  zvalue env g' n = Ok ([1], [1000005%Z]) /\ zmean (KUn (UAddR 1000001%Z)) [([1], [5%Z])] = Ok ([1], [1000006%Z]).
Proof. eexists. split; [vm_compute; reflexivity|]. vm_compute. split; reflexivity. Qed.

(** conditional(5, x, <) and conditional(x, 5, <) have the same label: the second call returns
    the node of the first. *)
Lemma C32_conditional_side_refuted_lemma :
  exists g, run int_num show_Z pick_first [] [HLeaf "x"; HMake (KCondL "lt" Z.ltb 5%Z) [0]] = Ok g /\
  let '(g', n) := make int_num show_Z pick_first g (KCondR "lt" Z.ltb 5%Z) [0] in
  let env := fun _ => ([2], [3%Z; 7%Z]) in
  zvalue env g' n = Ok ([2], [0%Z; 1%Z]) /\ zmean (KCondR "lt" Z.ltb 5%Z) [([2], [3%Z; 7%Z])] = Ok ([2], [1%Z; 0%Z]).
Proof. eexists. split; [vm_compute; reflexivity|]. vm_compute. split; reflexivity. Qed.

(** The order of the arguments of add_axial matters, but it is ignored: with the arguments
    exchanged it accesses a missing dimension, unless the other sum exists already. *)
Lemma C32_axial_order_refuted_lemma :
  exists g, run int_num show_Z pick_first [] [HLeaf "a"; HLeaf "b"; HMake (KAx BAdd false 1) [0; 1]] = Ok g /\
  let '(g', n) := make int_num show_Z pick_first g (KAx BAdd false 1) [1; 0] in
  let env := fun k => match k with 0 => ([3; 2], [1; 2; 3; 4; 5; 6]%Z) | _ => ([3], [10; 20; 30]%Z) end in
  zvalue env g' n = Ok ([3; 2], [11; 22; 33; 14; 25; 36]%Z) /\ zmean (KAx BAdd false 1) [env 1; env 0] = UB.
Proof. eexists. split; [vm_compute; reflexivity|]. vm_compute. split; reflexivity. Qed.

(** The shape of a sum of shapes [2] and [2, 1] depends on which sum was made first. *)
Lemma C32_sum_shape_refuted_lemma :
  exists g, run int_num show_Z pick_first [] [HLeaf "a"; HLeaf "b"; HMake (KBin BAdd) [0; 1]] = Ok g /\
  let '(g', n) := make int_num show_Z pick_first g (KBin BAdd) [1; 0] in
  let env := fun k => match k with 0 => ([2], [1; 2]%Z) | _ => ([2; 1], [10; 20]%Z) end in
  zvalue env g' n = Ok ([2; 1], [11; 22]%Z) /\ zmean (KBin BAdd) [env 1; env 0] = Ok ([2], [11; 22]%Z).
Proof. eexists. split; [vm_compute; reflexivity|]. vm_compute. split; reflexivity. Qed.

(** set_label: a node renamed to the label of another operation is returned for it. *)
Lemma C32_set_label_refuted_lemma :
  exists g, run int_num show_Z pick_first [] [HLeaf "x"; HMake (KUn UNeg) [0]; HLabel 1 "sin"] = Ok g /\
  make int_num show_Z pick_first g (KUn USin) [0] = (g, 1) /\
  let env := fun _ => ([1], [5%Z]) in
  zvalue env g 1 = Ok ([1], [(-5)%Z]) /\ zmean (KUn USin) [([1], [5%Z])] = Ok ([1], [5%Z]).
Proof. eexists. split; [vm_compute; reflexivity|]. vm_compute. repeat split; reflexivity. Qed.

(** clip_norm(l2norm(x), c) after clip_norm(x, c) returns clip_norm(x, c), because l2norm(x) is
    an argument of that node. *)
Lemma C32_clip_norm_refuted_lemma :
  exists g, run int_num show_Z pick_first [] [HLeaf "x"; HMake (KClipNorm 10%Z) [0]] = Ok g /\
  norm_node g 1 /\
  let '(g', n) := make int_num show_Z pick_first g (KClipNorm 10%Z) [1] in
  let env := fun _ => ([3], [3; 8; 4]%Z) in
  zvalue env g' n = Ok ([3], [10; 26; 13]%Z) /\ zvalue env g 1 = Ok ([1], [3%Z]) /\ zmean (KClipNorm 10%Z) [([1], [3%Z])] = Ok ([1], [10%Z]).
Proof. eexists. split; [vm_compute; reflexivity|]. split; [eexists; split; reflexivity|]. vm_compute. repeat split; reflexivity. Qed.

(** A node of a comparison called "lt_5" is taken for the comparison "lt" with the scalar 5. *)
Lemma C32_name_refuted_lemma :
  exists g, run int_num show_Z pick_first [] [HLeaf "x"; HLeaf "y"; HMake (KCond "lt_5" Z.leb) [0; 1]] = Ok g /\
  make int_num show_Z pick_first g (KCondR "lt" Z.eqb 5%Z) [0] = (g, 2).
Proof. eexists. split; vm_compute; reflexivity. Qed.

Lemma show_Z_exact : exact_printing show_Z.
Proof.
  split.
  - intros z. unfold show_Z, NilZero.string_of_int. destruct (Z.to_int z) as [d|d] eqn:E.
    + unfold NilZero.string_of_uint. destruct d; [reflexivity|..]; apply (uint_clean (_ _)).
    + unfold prints_number. cbn [all_chars]. replace (number_char "-") with true by reflexivity. cbn [andb].
      unfold NilZero.string_of_uint. destruct d; [reflexivity|..]; apply (uint_clean (_ _)).
  - intros x y E. unfold show_Z in E.
    assert (G : forall z, NilZero.int_of_string (NilZero.string_of_int (Z.to_int z)) = Some (Z.to_int z)).
    { intros z. apply NilZero.isi; intros Q; pose proof (DecimalZ.of_to z) as R; rewrite Q in R; cbn in R; subst z; discriminate Q. }
    pose proof (G x) as Gx. rewrite E, G in Gx. injection Gx as Ex. symmetry. now apply DecimalZ.to_int_inj.
Qed.
Lemma pick_first_picks : picks pick_first.
Proof.
  split.
  - intros [|a l] m E; cbn in E; [discriminate|]. injection E as <-. now left.
  - intros [|a l] H; cbn; [contradiction|discriminate].
Qed.

(** A history with reuse, negation and a deletion meets the hypotheses: x + y is found for
    y + x, the deleted sine is made again, and negating the negated sum gives the sum. *)
Lemma C32_nonvacuous_lemma :
  exact_printing show_Z /\ picks pick_first /\
  let hs := [HLeaf "x"; HLeaf "y"; HMake (KBin BAdd) [0; 1]; HMake (KUn USin) [0]; HMake (KUn UNeg) [2]; HDel 3; HMake (KUn USin) [0];
             HMake (KCondR "eq" Z.eqb 5%Z) [0]; HMat false true 0 1] in
  Forall (proper cmps) hs /\
  exists g, run int_num show_Z pick_first [] hs = Ok g /\ length g = 9 /\
    make int_num show_Z pick_first g (KBin BAdd) [1; 0] = (g, 2) /\
    make int_num show_Z pick_first g (KUn USin) [0] = (g, 5) /\
    make int_num show_Z pick_first g (KUn UNeg) [4] = (g, 2) /\
    make int_num show_Z pick_first g (KCondL "eq" Z.eqb 5%Z) [0] = (g, 6) /\
    make_mat int_num show_Z pick_first g false true 0 1 = (g, 8) /\
    well_named cmps (KCondL "eq" Z.eqb 5%Z) /\
    let env := fun k => match k with 0 => ([2; 1], [1; 2]%Z) | _ => ([2; 1], [10; 20]%Z) end in
    (forall k, full (env k)) /\
    zvalue env g 2 = Ok ([2; 1], [11; 22]%Z) /\ zvalue env g 4 = Ok ([2; 1], [-11; -22]%Z) /\ zvalue env g 8 = Ok ([1; 1], [50%Z]) /\
    ~ norm_node g 2.
Proof.
  split; [exact show_Z_exact|]. split; [exact pick_first_picks|]. cbv zeta. split.
  { repeat constructor; intros x y; apply Z.eqb_sym. }
  eexists. split; [vm_compute; reflexivity|]. split; [vm_compute; reflexivity|]. split; [vm_compute; reflexivity|]. split; [vm_compute; reflexivity|]. split; [vm_compute; reflexivity|]. split; [vm_compute; reflexivity|]. split; [vm_compute; reflexivity|].
  split. { repeat split. intros x y; apply Z.eqb_sym. }
  split. { intros [|k]; split; reflexivity. }
  split; [vm_compute; reflexivity|]. split; [vm_compute; reflexivity|]. split; [vm_compute; reflexivity|]. intros (nd & E & F). cbn in E. injection E as <-. discriminate F.
Qed.
