(** C63: names, shapes and initializers of the parameters of layers and networks. *)
From Coq Require Import String Ascii Lia DecimalString DecimalNat FinFun.
From Verif Require Import Common ShapeModel TransformModel MatmulModel ElemModel GradModel MlpModel ParamSpec.
Local Open Scope list_scope.

Lemma fc_names_from scope k i : flat_map (fun i => [scope ++ "_weights_" ++ decimal i; scope ++ "_bias_" ++ decimal i]%string) (seq i (S k)) =
  (scope ++ "_weights_" ++ decimal i)%string :: (scope ++ "_bias_" ++ decimal i)%string ::
  flat_map (fun i => [scope ++ "_weights_" ++ decimal i; scope ++ "_bias_" ++ decimal i]%string) (seq (S i) k).
Proof. reflexivity. Qed.

Lemma f2_len A B (R : A -> B -> Prop) l m : Forall2 R l m -> length l = length m.
Proof. induction 1; cbn; congruence. Qed.

Section P.
Context {T : Type} (N : num T) (of_nat : nat -> T).
Notation creates := (@creates T).

Lemma creates_app n1 p1 n2 p2 st st1 st2 v1 v2 : creates n1 p1 st st1 v1 -> creates n2 p2 st1 st2 v2 ->
  creates (n1 ++ n2) (p1 ++ p2) st st2 (v1 ++ v2).
Proof.
  assert (HA : forall (n1 : list string) (p1 : list (shape * init)), length n1 = length p1 -> variables (n1 ++ n2) (p1 ++ p2) = variables n1 p1 ++ variables n2 p2).
  { clear. induction n1 as [|a n1 IH]; intros [|[s i] p1] H; cbn in *; try discriminate; [reflexivity|]. now rewrite IH by lia. }
  assert (HL : forall (n1 : list string) (p1 : list (shape * init)), length n1 = length p1 -> length (@variables T n1 p1) = length p1).
  { clear. induction n1 as [|a n1 IH]; intros [|[s i] p1] H; cbn in *; try discriminate; [reflexivity|]. now rewrite IH by lia. }
  intros (A1 & A2 & A3) (B1 & B2 & B3). split; [|split].
  - rewrite !app_length. lia.
  - rewrite app_length, seq_app, A2, B2, A3, app_length, HL by auto. reflexivity.
  - rewrite B3, A3, HA by auto. now rewrite app_assoc.
Qed.
Lemma creates_nil st : creates [] [] st st [].
Proof. split; [reflexivity|]. split; [reflexivity|]. cbn. now rewrite app_nil_r. Qed.
Lemma creates_one name s i (st : store) : creates [name] [(s, i)] st (snd (alloc (mkVar name s i None) st)) [fst (alloc (mkVar name s i None) st)].
Proof. split; [reflexivity|]. split; reflexivity. Qed.

Lemma fc_from_creates scope c ns : forall i st l st', fc_vars_from N of_nat scope c ns i st = (l, st') ->
  creates (flat_map (fun i => [scope ++ "_weights_" ++ decimal i; scope ++ "_bias_" ++ decimal i]%string) (seq i (length ns))) (fc_params N of_nat ns c) st st' (flat_map (fun p => [fst p; snd p]) l).
Proof.
  induction ns as [|n ns IH]; intros i st l st' H.
  - injection H as <- <-. apply creates_nil.
  - cbn [fc_vars_from] in H. cbn [length]. rewrite fc_names_from. cbn [fc_params flat_map].
    match type of H with context [alloc ?v st] => pose proof (creates_one (v_label v) (v_shape v) (v_init v) st) as C1; destruct (alloc v st) as [w st1] eqn:E1 end.
    match type of H with context [alloc ?v st1] => pose proof (creates_one (v_label v) (v_shape v) (v_init v) st1) as C2; destruct (alloc v st1) as [b st2] eqn:E2 end.
    destruct (fc_vars_from _ _ _ _ _ _ _) as [l' st3] eqn:E3. injection H as <- <-.
    cbn [v_label v_shape v_init] in C1, C2. rewrite E1 in C1. rewrite E2 in C2. cbn [fst snd] in C1, C2.
    cbn [flat_map fst snd]. apply (creates_app [_] [_] _ _ _ _ _ [_] _ C1). apply (creates_app [_] [_] _ _ _ _ _ [_] _ C2).
    apply IH. exact E3.
Qed.
Lemma fc_creates scope c ns st l st' : fc_new N of_nat ns c scope st = (l, st') ->
  creates (fc_names scope (length ns)) (fc_params N of_nat ns c) st st' (fc_variables l).
Proof.
  unfold fc_new. destruct (fc_vars_from _ _ _ _ _ _ _) as [wb st1] eqn:E. intros H. injection H as <- <-. apply fc_from_creates. exact E.
Qed.
Lemma rbm_creates n h scope st r st' : rbm_new N of_nat n h scope st = (r, st') ->
  exists w hb vb, rbm_variables r = [Some w; Some hb; Some vb] /\ creates (rbm_names scope) (rbm_params N of_nat n h) st st' [w; hb; vb].
Proof.
  intros H. unfold rbm_new, alloc in H. injection H as <- <-. do 3 eexists. split; [reflexivity|].
  split; [reflexivity|]. split; [|rewrite <- !app_assoc; reflexivity].
  rewrite !app_length. cbn [length seq rbm_params]. rewrite !Nat.add_1_r. reflexivity.
Qed.
Lemma mlp_from_creates scope : forall hs n i st ls st', mlp_layers_from N of_nat scope n hs i st = (ls, st') ->
  creates (flat_map (fun i => fc_names (scope ++ ":hidden_" ++ decimal i)%string 1) (seq i (length hs))) (mlp_params N of_nat n (map fst hs)) st st'
    (flat_map (fun p => fc_variables (fst p)) ls).
Proof.
  induction hs as [|[c f] hs IH]; intros n i st ls st' H.
  - injection H as <- <-. apply creates_nil.
  - cbn [mlp_layers_from] in H. destruct (fc_new _ _ _ _ _ _) as [l st1] eqn:E1. destruct (mlp_layers_from _ _ _ _ _ _ _) as [ls' st2] eqn:E2.
    injection H as <- <-. cbn [length seq flat_map map fst mlp_params]. eapply creates_app; [apply (fc_creates _ _ _ _ _ _ E1)|apply (IH _ _ _ _ _ E2)].
Qed.
Lemma db_from_creates scope : forall hs n i st rs m st', db_layers_from N of_nat scope n hs i st = (rs, m, st') ->
  m = last hs n /\ exists vs, flat_map rbm_variables rs = map Some vs /\
  forall c names vs' st2, creates names (fc_params N of_nat [m] c) st' st2 vs' ->
  creates (flat_map (fun i => rbm_names (scope ++ ":rbm_" ++ decimal i)%string) (seq i (length hs)) ++ names) (db_params N of_nat n (hs ++ [c])) st st2 (vs ++ vs').
Proof.
  induction hs as [|h hs IH]; intros n i st rs m st' H.
  - injection H as <- <- <-. split; [reflexivity|]. exists []. split; [reflexivity|]. intros c names vs' st2 C. exact C.
  - cbn [db_layers_from] in H. destruct (rbm_new _ _ _ _ _ _) as [r st1] eqn:E1. destruct (db_layers_from _ _ _ _ _ _ _) as [[rs' m'] st2] eqn:E2.
    injection H as <- <- <-. destruct (IH _ _ _ _ _ _ E2) as (-> & vs & Ev & C2). destruct (rbm_creates _ _ _ _ _ _ E1) as (w & hb & vb & Er & C1).
    split; [destruct hs; [reflexivity|]; cbn [last]; clear; revert n0; induction hs as [|? ? IHh]; intros; [reflexivity|apply IHh]|].
    exists ([w; hb; vb] ++ vs). split; [cbn [flat_map]; rewrite Er, Ev, map_app; reflexivity|]. intros c names vs' st3 C.
    assert (D : db_params N of_nat n ((h :: hs) ++ [c]) = rbm_params N of_nat n h ++ db_params N of_nat h (hs ++ [c])) by (destruct hs; reflexivity).
    rewrite D. cbn [length seq flat_map]. rewrite <- !app_assoc. eapply creates_app; [exact C1|]. apply C2. exact C.
Qed.

(** copies *)
Lemma copies_app n1 n2 (st st1 st2 : @store T) v1 v2 v1' v2' : copies n1 st st1 v1 v1' -> copies n2 st1 st2 v2 v2' ->
  (forall p, In p v2 -> p < length st) -> copies (n1 ++ n2) st st2 (v1 ++ v2) (v1' ++ v2').
Proof.
  intros (A1 & A2 & va & A3 & A4) (B1 & B2 & vb & B3 & B4) Hl.
  assert (La : length v1 = length va) by (eapply f2_len; eauto). assert (Lb : length v2 = length vb) by (eapply f2_len; eauto).
  split; [rewrite !app_length; lia|]. split.
  { rewrite app_length, seq_app, A2, B2, A4, app_length, map_length, combine_length, A1, La, Nat.min_id. reflexivity. }
  exists (va ++ vb). split.
  - apply Forall2_app; [exact A3|]. clear - B3 Hl A4. induction B3 as [|p v v2 vb H B3 IH]; constructor.
    + rewrite A4, nth_error_app1 in H by (apply Hl; now left). exact H.
    + apply IH. intros q Hq. apply Hl. now right.
  - rewrite B4, A4, <- app_assoc, <- map_app. do 2 f_equal.
    assert (La' : length n1 = length va) by congruence. clear - La'. revert va La'. induction n1 as [|x n1 IH]; intros [|y va] L; cbn in *; try discriminate; [reflexivity|].
    f_equal. apply IH. lia.
Qed.
Lemma copies_one name (st : @store T) p v : nth_error st p = Some (Some v) -> copies [name] st (st ++ [Some (relabel name v)]) [p] [length st].
Proof. intros H. split; [reflexivity|]. split; [reflexivity|]. exists [v]. split; [constructor; auto|]. reflexivity. Qed.
Lemma copies_nil (st : @store T) : copies [] st st [] [].
Proof. split; [reflexivity|]. split; [reflexivity|]. exists []. split; [constructor|]. cbn. now rewrite app_nil_r. Qed.
Lemma deref_some (st : @store T) p v : deref st p = Ok v -> nth_error st p = Some (Some v).
Proof. unfold deref. destruct (nth_error st p) as [[x|]|]; intros H; try discriminate. now injection H as ->. Qed.

Lemma fc_copy_copies scope : forall wb i (st : @store T) r st', fc_copy_from scope wb i st = Ok (r, st') ->
  (forall p, In p (flat_map (fun p => [fst p; snd p]) wb) -> p < length st) ->
  copies (flat_map (fun i => [scope ++ "_weights_" ++ decimal i; scope ++ "_bias_" ++ decimal i]%string) (seq i (length wb))) st st'
    (flat_map (fun p => [fst p; snd p]) wb) (flat_map (fun p => [fst p; snd p]) r).
Proof.
  induction wb as [|[w b] wb IH]; intros i st r st' H Hl.
  - injection H as <- <-. apply copies_nil.
  - cbn [fc_copy_from] in H. destruct (deref st w) as [vw| | |] eqn:Ew; cbn [bind] in H; try discriminate.
    destruct (deref st b) as [vb| | |] eqn:Eb; cbn [bind] in H; try discriminate. unfold alloc in H.
    match type of H with bind ?x _ = _ => destruct x as [[l2 st2]| | |] eqn:E3 end; cbn [bind fst snd] in H; try discriminate. injection H as <- <-.
    cbn [length]. rewrite fc_names_from. cbn [flat_map fst snd].
    apply (copies_app [_] _ _ _ _ [_] (b :: _) [_] (_ :: _) (copies_one _ _ _ _ (deref_some _ _ _ Ew))); [|intros p Hp; apply Hl; now right].
    refine (copies_app [_] _ _ _ _ [_] _ [_] _ (copies_one _ _ _ vb _) _ _).
    + rewrite nth_error_app1; [now apply deref_some|]. apply Hl. right. now left.
    + apply (IH _ _ _ _ E3). intros p Hp. rewrite !app_length. specialize (Hl p (or_intror (or_intror Hp))). lia.
    + intros p Hp. rewrite !app_length. specialize (Hl p (or_intror (or_intror Hp))). lia.
Qed.
Lemma fc_clone_copies l scope (st : @store T) l' st' : fc_clone l scope st = Ok (l', st') ->
  (forall p, In p (fc_variables l) -> p < length st) ->
  copies (fc_names (fc_scope l') (length (fc_wb l))) st st' (fc_variables l) (fc_variables l') /\ fc_scope l' = copied_scope (fc_scope l) scope.
Proof.
  unfold fc_clone. destruct (fc_copy_from _ _ _ _) as [[r st1]| | |] eqn:E; cbn [bind fst snd]; intros H Hl; try discriminate. injection H as <- <-.
  split; [|reflexivity]. apply (fc_copy_copies _ _ _ _ _ _ E). exact Hl.
Qed.
Lemma mlp_copy_copies scope : scope <> ""%string -> forall ls i (st : @store T) r st', mlp_copy_from scope ls i st = Ok (r, st') ->
  (forall p, In p (flat_map (fun p => fc_variables (fst p)) ls) -> p < length st) -> Forall (fun p => length (fc_wb (fst p)) = 1) ls ->
  copies (flat_map (fun i => fc_names (scope ++ ":hiddens" ++ decimal i)%string 1) (seq i (length ls))) st st'
    (flat_map (fun p => fc_variables (fst p)) ls) (flat_map (fun p => fc_variables (fst p)) r).
Proof.
  intros Hs. induction ls as [|[l f] ls IH]; intros i st r st' H Hl H1.
  - injection H as <- <-. apply copies_nil.
  - cbn [mlp_copy_from] in H. destruct (fc_clone _ _ _) as [[l' st1]| | |] eqn:E1; cbn [bind fst snd] in H; try discriminate.
    destruct (mlp_copy_from _ _ _ _) as [[ls' st2]| | |] eqn:E2; cbn [bind fst snd] in H; try discriminate. injection H as <- <-.
    inversion H1 as [|? ? H2 H3]; subst. cbn [fst] in H2. destruct (fc_clone_copies _ _ _ _ _ E1) as (C1 & Sc).
    { intros p Hp. apply Hl. cbn [flat_map fst]. apply in_or_app. now left. }
    rewrite H2 in C1. unfold copied_scope in Sc. replace (String.eqb _ ""%string) with false in Sc by (destruct scope; [congruence|reflexivity]).
    rewrite Sc in C1. cbn [length seq flat_map fst]. refine (copies_app _ _ _ _ _ _ _ _ _ C1 _ _).
    + apply (IH _ _ _ _ E2); [|exact H3]. intros p Hp. assert (L : p < length st) by (apply Hl; cbn [flat_map fst]; apply in_or_app; now right).
      destruct C1 as (_ & _ & va & _ & ->). rewrite app_length. lia.
    + intros p Hp. apply Hl. cbn [flat_map fst]. apply in_or_app. now right.
Qed.
End P.

Lemma nodup_apart {A} (l m : list A) : NoDup l -> NoDup m -> (forall x, In x l -> ~ In x m) -> NoDup (l ++ m).
Proof.
  induction 1 as [|x l Hx Hl IH]; intros Hm H; cbn; [exact Hm|]. constructor.
  - intros I. apply in_app_or in I. destruct I as [I|I]; [contradiction|]. apply (H x); [now left|exact I].
  - apply IH; auto. intros y Hy. apply H. now right.
Qed.

(** decimal numerals *)
Lemma to_uint_nil i : Nat.to_uint i <> Decimal.Nil.
Proof.
  intros E. pose proof (Unsigned.to_of (Nat.to_uint i)) as D. rewrite Unsigned.of_to, E in D. discriminate.
Qed.
Lemma decimal_inj i j : decimal i = decimal j -> i = j.
Proof.
  unfold decimal. intros H. apply (f_equal NilZero.uint_of_string) in H. rewrite !NilZero.usu in H by apply to_uint_nil.
  injection H as H. now apply Unsigned.to_uint_inj.
Qed.
(** no underscore in it *)
Fixpoint plain (s : string) : Prop := match s with EmptyString => True | String c s => c <> "_"%char /\ plain s end.
Lemma decimal_plain i : plain (decimal i).
Proof.
  unfold decimal. assert (H : forall d, plain (NilEmpty.string_of_uint d)) by (induction d; cbn; auto; split; auto; discriminate).
  destruct (Nat.to_uint i) as [|d|d|d|d|d|d|d|d|d|d]; [cbn; split; auto; discriminate| | | | | | | | | |]; apply H.
Qed.
Lemma plain_split a : forall b s t, plain a -> plain b -> (a ++ String "_" s)%string = (b ++ String "_" t)%string -> a = b /\ s = t.
Proof.
  induction a as [|c a IH]; intros [|d b] s t Ha Hb H; cbn in *.
  - injection H as ->. auto.
  - injection H as <- _. destruct Hb. congruence.
  - injection H as -> _. destruct Ha. congruence.
  - injection H as -> H. destruct (IH b s t) as (-> & ->); tauto.
Qed.
Lemma app_same p : forall a b, (p ++ a)%string = (p ++ b)%string -> a = b.
Proof. induction p as [|c p IH]; intros a b H; cbn in *; [exact H|]. injection H as H. auto. Qed.
Lemma sapp_assoc a b c : ((a ++ b) ++ c)%string = (a ++ b ++ c)%string.
Proof. induction a as [|x a IH]; cbn; [reflexivity|]. now rewrite IH. Qed.

Lemma nodup_tails pre tails k : NoDup tails -> NoDup (flat_map (fun i => map (fun t => pre ++ decimal i ++ String "_" t)%string tails) (seq 0 k)).
Proof.
  intros Hn. assert (H : forall l, NoDup l -> NoDup (flat_map (fun i => map (fun t => pre ++ decimal i ++ String "_" t)%string tails) l)).
  { induction l as [|i l IH]; intros Hl; cbn; [constructor|]. inversion Hl as [|? ? H1 H2]; subst. apply nodup_apart.
  - apply Injective_map_NoDup; [|exact Hn]. intros a b E. apply app_same in E. apply app_same in E. now injection E.
  - now apply IH.
  - intros x Hx Hy. apply in_map_iff in Hx. destruct Hx as (t & <- & _). apply in_flat_map in Hy. destruct Hy as (j & Hj & Hy).
    apply in_map_iff in Hy. destruct Hy as (u & E & _). apply app_same in E. apply plain_split in E; try apply decimal_plain.
    destruct E as (E & _). apply decimal_inj in E. subst. contradiction. }
  apply H, seq_NoDup.
Qed.
Lemma fc_nodup scope k : NoDup (fc_names scope k).
Proof.
  unfold fc_names. assert (H : forall l, NoDup l -> NoDup (flat_map (fun i => [scope ++ "_weights_" ++ decimal i; scope ++ "_bias_" ++ decimal i]%string) l)).
  { induction l as [|i l IH]; intros Hl; cbn [flat_map]; [constructor|]. inversion Hl as [|? ? H1 H2]; subst. apply nodup_apart.
  - constructor; [|constructor; [auto|constructor]]. intros [E|[]]. apply app_same in E. discriminate.
  - now apply IH.
  - intros x Hx Hy. apply in_flat_map in Hy. destruct Hy as (j & Hj & Hy).
    destruct Hx as [<-|[<-|[]]]; destruct Hy as [E|[E|[]]]; apply app_same in E; try discriminate;
      apply app_same in E; apply decimal_inj in E; subst; contradiction. }
  apply H, seq_NoDup.
Qed.
Lemma net_names_tails sep scope k : net_names sep scope k =
  flat_map (fun i => map (fun t => (scope ++ sep) ++ decimal i ++ String "_" t)%string ["weights_0"; "bias_0"]%string) (seq 0 k).
Proof.
  unfold net_names. apply flat_map_ext. intros i. unfold fc_names. cbn [seq flat_map map app]. rewrite !sapp_assoc. reflexivity.
Qed.
Lemma net_nodup sep scope k : NoDup (net_names sep scope k).
Proof.
  rewrite net_names_tails. apply nodup_tails. constructor; [|constructor; [auto|constructor]]. intros [E|[]]. discriminate.
Qed.
Lemma db_nodup scope k : NoDup (db_names scope k).
Proof.
  unfold db_names. apply nodup_apart.
  - replace (flat_map _ _) with (flat_map (fun i => map (fun t => (scope ++ ":rbm_") ++ decimal i ++ String "_" t)%string ["weights"; "hidden_bias"; "visible_bias"]%string) (seq 0 k)).
    + apply nodup_tails. repeat constructor; cbn; intuition discriminate.
    + apply flat_map_ext. intros i. unfold rbm_names. cbn [map]. rewrite !sapp_assoc. reflexivity.
  - apply fc_nodup.
  - intros x Hx Hy. apply in_flat_map in Hx. destruct Hx as (i & _ & Hx). unfold fc_names in Hy. cbn [seq flat_map app] in Hy.
    destruct Hx as [<-|[<-|[<-|[]]]]; destruct Hy as [E|[E|[]]]; rewrite !sapp_assoc in E; apply app_same in E; discriminate.
Qed.
Lemma rbm_nodup scope : NoDup (rbm_names scope).
Proof.
  assert (H : rbm_names scope = map (fun t => scope ++ t)%string ["_weights"; "_hidden_bias"; "_visible_bias"]%string) by reflexivity.
  rewrite H. apply Injective_map_NoDup; [intros a b; apply app_same|]. repeat constructor; cbn; intuition discriminate.
Qed.

(** ---- C63 ---- *)

(** A new fully connected layer creates, for every input i, a weight scope_weights_i of shape
    [outputs, inputs], uniform between +-1/sqrt(inputs), and a zero bias scope_bias_i of shape
    [outputs]; get_variables lists exactly these new variables in this order, no two have the
    same name and nothing else changes. *)
Lemma C63_fc_layer_lemma :
  forall (T : Type) (N : num T) (of_nat : nat -> T) ns c scope st l st',
    fc_new N of_nat ns c scope st = (l, st') ->
    creates (fc_names scope (length ns)) (fc_params N of_nat ns c) st st' (fc_variables l) /\ NoDup (fc_names scope (length ns)).
Proof. intros T N of_nat ns c scope st l st' H. split; [now apply fc_creates|apply fc_nodup]. Qed.

(** A new Boltzmann machine creates weights, hidden and visible biases. *)
Lemma C63_rbm_lemma :
  forall (T : Type) (N : num T) (of_nat : nat -> T) n h scope st r st',
    rbm_new N of_nat n h scope st = (r, st') ->
    r_nin r = n /\ r_nhidden r = Some h /\ r_scope r = scope /\
    exists vs, rbm_variables r = map Some vs /\ creates (rbm_names scope) (rbm_params N of_nat n h) st st' vs /\ NoDup (rbm_names scope).
Proof.
  intros T N of_nat n h scope st r st' H. destruct (rbm_creates N of_nat _ _ _ _ _ _ H) as (w & hb & vb & E & C).
  unfold rbm_new, alloc in H. injection H as <- _. do 3 (split; [reflexivity|]). exists [w; hb; vb]. split; [exact E|]. split; [exact C|apply rbm_nodup].
Qed.

(** A new mlp creates the parameters of its layers scope:hidden_0, scope:hidden_1, ..., each
    taking the outputs of the one before. *)
Lemma C63_mlp_lemma :
  forall (T : Type) (N : num T) (of_nat : nat -> T) n (hs : list (nat * (@expr T -> res expr))) scope st m st',
    mlp_new N of_nat n hs scope st = (m, st') ->
    map snd (m_layers m) = map snd hs /\
    creates (net_names ":hidden_" scope (length hs)) (mlp_params N of_nat n (map fst hs)) st st' (mlp_variables m) /\
    NoDup (net_names ":hidden_" scope (length hs)).
Proof.
  intros T N of_nat n hs scope st m st' H. unfold mlp_new in H. destruct (mlp_layers_from _ _ _ _ _ _ _) as [ls st1] eqn:E. injection H as <- <-.
  split; [|split; [apply (mlp_from_creates N of_nat _ _ _ _ _ _ _ E)|apply net_nodup]].
  cbn [m_layers]. clear - E. revert n ls st st1 E. generalize 0. induction hs as [|[c f] hs IH]; intros i n ls st st1 E; cbn [mlp_layers_from] in E; [injection E as <- <-; reflexivity|].
  destruct (fc_new _ _ _ _ _ _) as [l st2]. destruct (mlp_layers_from _ _ _ _ _ _ _) as [ls' st3] eqn:E'. injection E as <- <-. cbn [map snd]. f_equal. eapply IH; eauto.
Qed.

(** A new belief network creates the parameters of machines scope:rbm_0, ... of all sizes but
    the last, each taking the hidden units of the one before, and those of a fully connected
    layer scope:logres of the last size. Without sizes the constructor asserts. *)
Lemma C63_db_net_lemma :
  forall (T : Type) (N : num T) (of_nat : nat -> T) n hs scope st,
    (hs = [] -> db_new N of_nat n hs scope st = Abort) /\
    forall d st', db_new N of_nat n hs scope st = Ok (d, st') ->
      d_nin d = n /\ d_nout d = last hs 0 /\ length (d_layers d) = length hs - 1 /\
      exists vs, db_variables d = Ok (map Some vs) /\
        creates (db_names scope (length hs - 1)) (db_params N of_nat n hs) st st' vs /\ NoDup (db_names scope (length hs - 1)).
Proof.
  intros T N of_nat n hs scope st. split; [intros ->; reflexivity|]. intros d st' H. unfold db_new in H.
  destruct hs as [|h0 hs0] using rev_ind; [discriminate|]. clear IHhs0. rewrite rev_app_distr in H. cbn [rev app] in H. rewrite removelast_last in H.
  destruct (db_layers_from _ _ _ _ _ _ _) as [[rs m] st1] eqn:E1. destruct (fc_new _ _ _ _ _ _) as [l st2] eqn:E2. injection H as <- <-.
  cbn [d_nin d_nout d_layers]. rewrite last_last, app_length. cbn [length]. rewrite Nat.add_sub. split; [reflexivity|]. split; [reflexivity|].
  destruct (db_from_creates N of_nat _ _ _ _ _ _ _ _ E1) as (_ & vs & Ev & C).
  split; [clear - E1; revert n rs m st st1 E1; generalize 0; induction hs0 as [|a hs0 IH]; intros i n rs m st st1 E1; cbn [db_layers_from] in E1;
    [injection E1 as <- <- <-; reflexivity|]; destruct (rbm_new _ _ _ _ _ _) as [r st2]; destruct (db_layers_from _ _ _ _ _ _ _) as [[rs' m'] st3] eqn:E';
    injection E1 as <- <- <-; cbn [length]; f_equal; eapply IH; eauto|].
  exists (vs ++ fc_variables l). split; [unfold db_variables; cbn [d_log d_layers]; rewrite Ev, map_app; reflexivity|].
  split; [|apply db_nodup]. apply C. apply (fc_creates N of_nat _ _ [_] _ _ _ E2).
Qed.

(** A copy of a layer with living variables renames the new variables with the copy's scope
    (the old scope followed by _cpy when none is given) and leaves everything else as it is. *)
Lemma C63_fc_layer_clone_lemma :
  forall (T : Type) (l l' : fc_layer) scope (st st' : @store T),
    fc_clone l scope st = Ok (l', st') -> (forall p, In p (fc_variables l) -> p < length st) ->
    fc_scope l' = (if String.eqb scope "" then fc_scope l ++ "_cpy" else scope)%string /\
    copies (fc_names (fc_scope l') (length (fc_wb l))) st st' (fc_variables l) (fc_variables l') /\ NoDup (fc_names (fc_scope l') (length (fc_wb l))).
Proof.
  intros T l l' scope st st' H Hl. destruct (fc_clone_copies _ _ _ _ _ H Hl) as (C & Hs). split; [exact Hs|]. split; [exact C|apply fc_nodup].
Qed.

(** A copy of an mlp calls its layers scope:hiddens0, scope:hiddens1, ..., not as the
    constructor does. *)
Lemma C63_mlp_clone_lemma :
  forall (T : Type) (m m' : @mlp T) scope (st st' : @store T),
    mlp_clone m scope st = Ok (m', st') -> (forall p, In p (mlp_variables m) -> p < length st) ->
    Forall (fun p => length (fc_wb (fst p)) = 1) (m_layers m) ->
    m_scope m' = (if String.eqb scope "" then m_scope m ++ "_cpy" else scope)%string /\
    copies (net_names ":hiddens" (m_scope m') (length (m_layers m))) st st' (mlp_variables m) (mlp_variables m') /\
    NoDup (net_names ":hiddens" (m_scope m') (length (m_layers m))).
Proof.
  intros T m m' scope st st' H Hl H1. unfold mlp_clone in H. destruct (mlp_copy_from _ _ _ _) as [[r st1]| | |] eqn:E; cbn [bind fst snd] in H; try discriminate.
  injection H as <- <-. cbn [m_scope mlp_variables m_layers]. split; [reflexivity|]. split; [|apply net_nodup].
  refine (mlp_copy_copies _ _ _ _ _ _ _ E Hl H1). unfold copied_scope. destruct (String.eqb scope "") eqn:Es.
  - intros E0. destruct (m_scope m); discriminate.
  - intros ->. discriminate.
Qed.

(** Finding: a copy of a Boltzmann machine keeps the names of the original, whatever scope is
    given. *)
Lemma C63_rbm_clone_names_refuted_lemma :
  forall (T : Type) (r r' : @rbm) scope (st st' : @store T) w hb vb vw vh vv,
    rbm_variables r = [Some w; Some hb; Some vb] -> nth_error st w = Some (Some vw) -> nth_error st hb = Some (Some vh) -> nth_error st vb = Some (Some vv) ->
    rbm_clone r scope st = Ok (r', st') ->
    exists w' hb' vb', rbm_variables r' = [Some w'; Some hb'; Some vb'] /\ ~ In w' [w; hb; vb] /\
      nth_error st' w' = Some (Some vw) /\ nth_error st' hb' = Some (Some vh) /\ nth_error st' vb' = Some (Some vv).
Proof.
  intros T [sc nin nh rw rh rv] r' scope st st' w hb vb vw vh vv E W H V C. unfold rbm_variables in E. cbn in E. injection E as -> -> ->.
  assert (Lw : w < length st) by (apply nth_error_Some; congruence). assert (Lh : hb < length st) by (apply nth_error_Some; congruence).
  assert (Lv : vb < length st) by (apply nth_error_Some; congruence).
  unfold rbm_clone, rbm_copy, ptr_of, alloc, deref in C. cbn [r_w r_hb r_vb r_nin r_scope bind] in C. rewrite W in C. cbn [bind] in C.
  rewrite nth_error_app1, H in C by auto. cbn [bind] in C. rewrite nth_error_app1, nth_error_app1, V in C by (rewrite ?app_length; lia). cbn [bind] in C.
  injection C as <- <-. do 3 eexists. split; [reflexivity|]. split; [cbn; lia|].
  rewrite <- !app_assoc, !app_length. cbn [length app].
  repeat split; (rewrite nth_error_app2 by lia); (replace (_ - _) with 0 by lia) || (replace (_ - _) with 1 by lia) || (replace (_ - _) with 2 by lia); reflexivity.
Qed.

(** new networks over the integers, a copy and its names *)
Lemma C63_nonvacuous_lemma :
  forall N : num nat,
  exists m st m' st' d st2,
    mlp_new N (fun n => n) 10 [(4, @mk_id nat); (2, @mk_id nat)] "net"%string [] = (m, st) /\
    mlp_variables m = [0; 1; 2; 3] /\ Forall (fun p => length (fc_wb (fst p)) = 1) (m_layers m) /\
    map (fun v => match v with Some v => (v_label v, v_shape v) | None => (""%string, []) end) st =
      [("net:hidden_0_weights_0", [4; 10]); ("net:hidden_0_bias_0", [4]); ("net:hidden_1_weights_0", [2; 4]); ("net:hidden_1_bias_0", [2])]%string /\
    mlp_clone m "" st = Ok (m', st') /\
    map (fun v => match v with Some v => v_label v | None => ""%string end) (skipn 4 st') =
      ["net_cpy:hiddens0_weights_0"; "net_cpy:hiddens0_bias_0"; "net_cpy:hiddens1_weights_0"; "net_cpy:hiddens1_bias_0"]%string /\
    db_new N (fun n => n) 10 [4; 2] "db"%string [] = Ok (d, st2) /\
    map (fun v => match v with Some v => (v_label v, v_shape v) | None => (""%string, []) end) st2 =
      [("db:rbm_0_weights", [4; 10]); ("db:rbm_0_hidden_bias", [4]); ("db:rbm_0_visible_bias", [10]); ("db:logres_weights_0", [2; 4]); ("db:logres_bias_0", [2])]%string.
Proof.
  intros N. do 6 eexists. split; [reflexivity|]. split; [reflexivity|]. split; [repeat constructor|]. split; [reflexivity|]. split; [reflexivity|].
  split; [reflexivity|]. split; reflexivity.
Qed.
