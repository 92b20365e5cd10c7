(** Laws of saving and loading nodes. *)
From Coq Require Import String.
From Verif Require Import Common ShapeModel ShapeSpec ShapeProofs FitModel TensorModel TensorSpec TensorProofs TensorDataLaws LeafModel LeafSpec LeafProofs LeafLaws SerialModel SerialSpec SerialProofs.
Local Open Scope list_scope.

Section Aux.
Context {T : Type} (zero junk : T).
Implicit Types W : @lworld T.

Lemma savable_msg W node s d : LInv W -> savable W node s d -> exists p, msg W node = Some p /\ p_alloc p = s /\ p_data p = d /\ readable p.
Proof.
  intros HI [Ho [t [Ha [Hl Hc]]]]. destruct (msg_value W node s d HI Ho) as [t' [Ha' [Hs [Hm [Hd Hdef]]]]].
  unfold alive in Ha, Ha'. rewrite Ha in Ha'. injection Ha' as <-. eexists. split; [exact Hm|]. do 2 (split; [reflexivity|]).
  unfold readable; cbn. auto.
Qed.

(** the file written, entry by entry *)
Lemma write_entry W fs nodes label f fs' ok : LInv W -> Forall (fun n => n < length (l_fs W)) nodes ->
  write_inorder W fs nodes label f WDone = Ok (fs', ok) -> ok = true ->
  (forall l i, entry fs' f l i =
      match (if String.eqb l label then nth_error nodes i else None) with
      | Some node => match msg W node with Some p => Some p | None => entry fs f l i end
      | None => entry fs f l i
      end) /\ (exists r, fs' f = FRepo r) /\ (forall g, g <> f -> fs' g = fs g).
Proof.
  intros HI HF E ->. unfold write_inorder in E. unfold entry.
  assert (X : exists r0, (match fs f with FAbsent => Some [] | FGarbage => None | FRepo r => Some r end) = Some r0 /\
     forall k, map_find r0 k = match fs f with FRepo r => map_find r k | _ => None end).
  { destruct (fs f); try discriminate; eexists; split; eauto. }
  destruct X as [r0 [E0 H0]]. rewrite E0 in E. destruct (put_nodes_ok W nodes label r0 HI HF) as [r1 [E1 H1]]. rewrite E1 in E. cbn [bind] in E.
  injection E as <-. unfold write_file. split; [|split].
  - intros l i. rewrite String.eqb_refl, H1, H0. reflexivity.
  - rewrite String.eqb_refl. eauto.
  - intros g Hg. destruct (String.eqb_spec g f); congruence.
Qed.

Lemma write_ok W fs nodes label f : LInv W -> Forall (fun n => n < length (l_fs W)) nodes -> ~ corrupt fs f ->
  exists fs', write_inorder W fs nodes label f WDone = Ok (fs', true).
Proof.
  intros HI HF HC. unfold write_inorder. unfold corrupt in HC. destruct (fs f) as [| |r]; [|congruence|].
  - destruct (put_nodes_ok W nodes label [] HI HF) as [r1 [E1 H1]]. rewrite E1. eexists; reflexivity.
  - destruct (put_nodes_ok W nodes label r HI HF) as [r1 [E1 H1]]. rewrite E1. eexists; reflexivity.
Qed.

Lemma In_unfound (repo : repository T) label (nodes : list nat) x :
  In x (map snd (filter (fun e => match map_find repo (node_label label (fst e)) with None => true | _ => false end) (combine (seq 0 (length nodes)) nodes))) <->
  exists i, nth_error nodes i = Some x /\ map_find repo (node_label label i) = None.
Proof.
  assert (G : forall b i y, In (i, y) (combine (seq b (length nodes)) nodes) <-> b <= i /\ nth_error nodes (i - b) = Some y).
  { induction nodes as [|z l IH]; intros b i y; cbn.
    - split; [tauto|]. intros [_ H]. destruct (i - b); discriminate.
    - rewrite IH. split.
      + intros [H|[H1 H2]]; [injection H as <- <-; rewrite Nat.sub_diag; auto|]. split; [lia|]. replace (i - b) with (S (i - S b)) by lia. exact H2.
      + intros [H1 H2]. destruct (Nat.eq_dec i b) as [->|Hn]; [rewrite Nat.sub_diag in H2; injection H2 as ->; auto|]. right. split; [lia|].
        replace (i - b) with (S (i - S b)) in H2 by lia. exact H2. }
  rewrite in_map_iff. split.
  - intros [[i y] [<- H]]. apply filter_In in H as [H1 H2]. apply G in H1 as [_ H1]. rewrite Nat.sub_0_r in H1. exists i. cbn in *. split; auto.
    destruct (map_find repo (node_label label i)); [discriminate|auto].
  - intros [i [H1 H2]]. exists (i, x). split; auto. apply filter_In. split; [apply G; rewrite Nat.sub_0_r; split; auto; lia|]. cbn. now rewrite H2.
Qed.

Lemma map_snd_filter_nil (P : nat * nat -> bool) l : (forall e, In e l -> P e = false) -> map (@snd nat nat) (filter P l) = [].
Proof. induction l as [|e l IH]; intros H; cbn; auto. rewrite (H e (or_introl eq_refl)). apply IH. intros; apply H; now right. Qed.

Lemma read_main W fs nodes label f r : Good W -> fs f = FRepo r -> NoDup nodes -> Forall (is_leaf W) nodes ->
  (forall i p, i < length nodes -> entry fs f label i = Some p -> readable p) ->
  exists W' unfound, read_inorder zero junk W fs nodes label f = Ok (W', unfound, true) /\ Good W' /\
    (forall i node p, nth_error nodes i = Some node -> entry fs f label i = Some p -> observe W' node = Ok (Some (p_alloc p, p_data p))) /\
    (forall x, In x unfound <-> exists i, nth_error nodes i = Some x /\ entry fs f label i = None) /\
    (forall x, x < length (l_fs W) -> (forall i, nth_error nodes i = Some x -> entry fs f label i = None) -> observe W' x = observe W x) /\
    length (l_fs W') = length (l_fs W) /\ (forall j k, has_kind W j k -> has_kind W' j k) /\
    (forall j s, (forall i p, nth_error nodes i = Some j -> entry fs f label i = Some p -> p_alloc p = s) -> shape_of W j s -> shape_of W' j s).
Proof.
  intros HG Er HN HF HR. unfold entry in HR |- *. rewrite Er in HR |- *.
  destruct (read_nodes_ok zero junk W r nodes label HG HN HF) as [W' [E [G' [R' [O' [L' [K' S']]]]]]].
  { intros i p Hi Hp. eapply HR; eauto. }
  eexists W', _. unfold read_inorder. rewrite Er, E. cbn [bind]. split; [reflexivity|]. split; auto. split; [|split; [|split; [|auto]]].
  - intros i node p Hn Hp. specialize (R' i node Hn). now rewrite Hp in R'.
  - intros x. apply In_unfound.
  - intros x Hx Hno. destruct (in_dec Nat.eq_dec x nodes) as [Hin|Hin]; [|now apply O'].
    apply In_nth_error in Hin as [i Hi]. specialize (R' i x Hi). now rewrite (Hno i Hi) in R'.
Qed.
End Aux.

(** ---- the laws ---- *)

(** Keys of saved nodes: two (label, position) pairs get the same key exactly if they are the
    same, whatever the labels, including labels containing colons and digits. *)
Lemma C35_keys_distinct_lemma :
  forall l i l' j, node_label l i = node_label l' j <-> l = l' /\ i = j.
Proof. intros l i l' j. split; [apply node_label_inj|intros [-> ->]; reflexivity]. Qed.

(** What write_inorder does, from every reachable state. A file that is there but does not
    parse is left alone and false is returned, and likewise if the file cannot be opened.
    Otherwise each node that has a value gets the entry of its position, with that shape and
    data; nodes without a value keep the entry an earlier save left there; the entries
    of other labels, of further positions and of other files are untouched. *)
Lemma C35_write_lemma :
  forall (T : Type) (zero junk : T) add sub eqb (W : lworld) fs nodes label f,
    reach zero junk add sub eqb W -> Forall (fun n => n < length (l_fs W)) nodes ->
    (corrupt fs f -> forall out, write_inorder W fs nodes label f out = Ok (fs, false)) /\
    (write_inorder W fs nodes label f WNotOpened = Ok (fs, false)) /\
    (~ corrupt fs f -> exists fs', write_inorder W fs nodes label f WDone = Ok (fs', true) /\
      ~ corrupt fs' f /\ (forall g, g <> f -> fs' g = fs g) /\
      (forall l i, l <> label \/ length nodes <= i -> entry fs' f l i = entry fs f l i) /\
      (forall i node s d, nth_error nodes i = Some node -> observe W node = Ok (Some (s, d)) ->
         exists p, entry fs' f label i = Some p /\ p_alloc p = s /\ p_data p = d) /\
      (forall i node, nth_error nodes i = Some node -> observe W node = Ok None -> entry fs' f label i = entry fs f label i)).
Proof.
  intros T zero junk add sub eqb W fs nodes label f HW HF. pose proof (reach_Good _ _ _ _ _ W HW) as [HI _]. split; [|split].
  - intros HC out. unfold write_inorder. unfold corrupt in HC. now rewrite HC.
  - unfold write_inorder. destruct (fs f) as [| |r]; auto.
    + destruct (put_nodes_ok W nodes label [] HI HF) as [r1 [-> _]]. reflexivity.
    + destruct (put_nodes_ok W nodes label r HI HF) as [r1 [-> _]]. reflexivity.
  - intros HC. destruct (write_ok W fs nodes label f HI HF HC) as [fs' E]. exists fs'. split; auto.
    destruct (write_entry W fs nodes label f fs' true HI HF E eq_refl) as [He [[r Hr] Hg]]. split; [unfold corrupt; congruence|]. split; auto. split; [|split].
    + intros l i Hli. rewrite He. destruct (String.eqb_spec l label) as [->|]; auto. destruct Hli as [Hli|Hli]; [congruence|]. apply nth_error_None in Hli. now rewrite Hli.
    + intros i node s d Hn Ho. rewrite He, String.eqb_refl, Hn. destruct (msg_value W node s d HI Ho) as [t [_ [_ [Hm _]]]]. rewrite Hm. eexists. split; [reflexivity|]. auto.
    + intros i node Hn Ho. rewrite He, String.eqb_refl, Hn. now rewrite (msg_none W node Ho).
Qed.

(** What read_inorder does with a file whose entries are messages a node can be loaded from:
    each node with an entry has that value afterwards, exactly the nodes without one are
    reported, and these and all other nodes keep their value. *)
Lemma C35_read_lemma :
  forall (T : Type) (zero junk : T) add sub eqb (W : lworld) fs nodes label f,
    reach zero junk add sub eqb W -> (exists r, fs f = FRepo r) -> NoDup nodes -> Forall (is_leaf W) nodes ->
    (forall i p, i < length nodes -> entry fs f label i = Some p -> readable p) ->
    exists W' unfound, read_inorder zero junk W fs nodes label f = Ok (W', unfound, true) /\
      (forall i node p, nth_error nodes i = Some node -> entry fs f label i = Some p -> observe W' node = Ok (Some (p_alloc p, p_data p))) /\
      (forall x, In x unfound <-> exists i, nth_error nodes i = Some x /\ entry fs f label i = None) /\
      (forall x, x < length (l_fs W) -> (forall i, nth_error nodes i = Some x -> entry fs f label i = None) -> observe W' x = observe W x).
Proof.
  intros T zero junk add sub eqb W fs nodes label f HW [r Er] HN HF HR.
  destruct (read_main zero junk W fs nodes label f r (reach_Good _ _ _ _ _ W HW) Er HN HF HR) as [W' [u [E [_ [H1 [H2 [H3 _]]]]]]]. eauto 8.
Qed.

(** A missing or unparsable file: false, no node changes, and no node is removed from the
    vector. *)
Lemma C35_read_no_file_lemma :
  forall (T : Type) (zero junk : T) (W : @lworld T) fs nodes label f,
    (fs f = FAbsent \/ corrupt fs f) -> read_inorder zero junk W fs nodes label f = Ok (W, nodes, false).
Proof. intros T zero junk W fs nodes label f [H|H]; unfold read_inorder; [|unfold corrupt in H]; now rewrite H. Qed.

(** Saving in one program state and loading, possibly in another program run, into as many
    leaf nodes under the same label restores every saved node's value in order; exactly the
    nodes standing where an uninitialised one was saved are reported, and these and all nodes
    outside the list keep their value. *)
Lemma C35_round_trip_lemma :
  forall (T : Type) (zero junk : T) add sub eqb (W W1 : lworld) fs fs' nodes nodes1 label f,
    reach zero junk add sub eqb W -> Forall (fun n => n < length (l_fs W)) nodes ->
    write_inorder W fs nodes label f WDone = Ok (fs', true) ->
    (forall i node, nth_error nodes i = Some node ->
       (exists s d, savable W node s d) \/ (observe W node = Ok None /\ entry fs f label i = None)) ->
    reach zero junk add sub eqb W1 -> length nodes1 = length nodes -> NoDup nodes1 -> Forall (is_leaf W1) nodes1 ->
    exists W2 unfound, read_inorder zero junk W1 fs' nodes1 label f = Ok (W2, unfound, true) /\
      (forall i node node1 s d, nth_error nodes i = Some node -> nth_error nodes1 i = Some node1 ->
         observe W node = Ok (Some (s, d)) -> observe W2 node1 = Ok (Some (s, d))) /\
      (forall x, In x unfound <-> exists i node, nth_error nodes1 i = Some x /\ nth_error nodes i = Some node /\ observe W node = Ok None) /\
      (forall x, x < length (l_fs W1) -> ~ In x nodes1 \/ In x unfound -> observe W2 x = observe W1 x).
Proof.
  intros T zero junk add sub eqb W W1 fs fs' nodes nodes1 label f HW HF E HS HW1 HL HN HF1.
  pose proof (reach_Good _ _ _ _ _ W HW) as [HI _]. destruct (write_entry W fs nodes label f fs' true HI HF E eq_refl) as [He [[r Hr] _]].
  assert (Hent : forall i node, nth_error nodes i = Some node ->
    (exists s d p, observe W node = Ok (Some (s, d)) /\ entry fs' f label i = Some p /\ p_alloc p = s /\ p_data p = d /\ readable p) \/
    (observe W node = Ok None /\ entry fs' f label i = None)).
  { intros i node Hn. rewrite He, String.eqb_refl, Hn. destruct (HS i node Hn) as [[s [d Hsv]]|[Ho Hno]].
    - left. destruct (savable_msg W node s d HI Hsv) as [p [Hm [Ha [Hd Hrd]]]]. exists s, d, p. rewrite Hm. split; [apply Hsv|]. auto.
    - right. rewrite (msg_none W node Ho). auto. }
  assert (Hex : forall i node1, nth_error nodes1 i = Some node1 -> exists node, nth_error nodes i = Some node).
  { intros i node1 H. apply nth_error_lt in H. destruct (nth_error nodes i) eqn:X; [eauto|]. apply nth_error_None in X. lia. }
  destruct (read_main zero junk W1 fs' nodes1 label f r (reach_Good _ _ _ _ _ W1 HW1) Hr HN HF1) as [W2 [u [E2 [_ [H1 [H2 [H3 _]]]]]]].
  { intros i p Hi Hp. destruct (nth_error nodes1 i) as [n1|] eqn:X; [|apply nth_error_None in X; lia]. destruct (Hex i n1 X) as [node Hn].
    destruct (Hent i node Hn) as [[s [d [p' [_ [Hp' [_ [_ Hrd]]]]]]]|[_ Hno]]; congruence. }
  exists W2, u. split; auto. split; [|split].
  - intros i node node1 s d Hn Hn1 Ho. destruct (Hent i node Hn) as [[s' [d' [p [Ho' [Hp [<- [<- _]]]]]]]|[Ho' _]]; [|congruence].
    rewrite Ho' in Ho. injection Ho as <- <-. eapply H1; eauto.
  - intros x. rewrite H2. split.
    + intros [i [Hi Hno]]. destruct (Hex i x Hi) as [node Hn]. exists i, node. split; auto. split; auto. destruct (Hent i node Hn) as [[s [d [p [_ [Hp _]]]]]|[Ho _]]; congruence.
    + intros [i [node [Hi [Hn Ho]]]]. exists i. split; auto. destruct (Hent i node Hn) as [[s [d [p [Ho' _]]]]|[_ Hno]]; congruence.
  - intros x Hlt Hx. apply H3; auto. intros i Hi. destruct Hx as [Hx|Hx]; [elim Hx; eapply nth_error_In; eauto|].
    apply H2 in Hx as [j [Hj Hno]]. assert (i = j) as ->; auto. apply (proj1 (NoDup_nth_error nodes1) HN); [now apply nth_error_lt in Hi|congruence].
Qed.

(** The save is not atomic: a write that fails, or a crash, after the file was opened can
    leave a file that parses as an empty repository, so that what other labels had saved
    there is gone and loading reports success. *)
Lemma C35_interrupted_save_refuted_lemma :
  forall (T : Type) (zero junk : T) add sub eqb (W : lworld) fs nodes label f,
    reach zero junk add sub eqb W -> Forall (fun n => n < length (l_fs W)) nodes -> ~ corrupt fs f ->
    exists fs', write_inorder W fs nodes label f (WCut (FRepo [])) = Ok (fs', false) /\
      (forall l i, entry fs' f l i = None) /\
      (forall (W1 : @lworld T) nodes1 l, exists u, read_inorder zero junk W1 fs' nodes1 l f = Ok (W1, u, true)).
Proof.
  intros T zero junk add sub eqb W fs nodes label f HW HF HC. pose proof (reach_Good _ _ _ _ _ W HW) as [HI _].
  exists (write_file fs f (FRepo [])). split; [|split].
  - unfold write_inorder. unfold corrupt in HC. destruct (fs f) as [| |r]; [|congruence|].
    + destruct (put_nodes_ok W nodes label [] HI HF) as [r1 [-> _]]. reflexivity.
    + destruct (put_nodes_ok W nodes label r HI HF) as [r1 [-> _]]. reflexivity.
  - intros l i. unfold entry, write_file. now rewrite String.eqb_refl.
  - intros W1 nodes1 l. unfold read_inorder, write_file. rewrite String.eqb_refl. unfold read_nodes.
    match goal with |- exists u, (r <- for_ ?n ?body _ ;; _) = _ => destruct (for_inv (fun _ st => fst st = W1) body n (W1, [])) as [[W2 u] [E HE]] end.
    + reflexivity.
    + intros j [W2 u] Hj HE. destruct (rd_lt nodes1 j Hj) as [nd [_ En]]. rewrite En. cbn [bind map_find]. eexists. split; [reflexivity|exact HE].
    + cbn in HE. subst W2. rewrite E. cbn [bind]. eauto.
Qed.

(** A node whose declared shape and value differ in rank (constant or placeholder made with
    an unspecified shape) is saved, but loading the file aborts. *)
Lemma C35_rank_change_refuted_lemma :
  exists (W : @lworld nat) fs',
    lrun 0 0 Nat.add Nat.sub Nat.eqb linit [LVar [] (Some (fun k => k)); LInitShape 0 [2]] = Ok W /\
    observe W 0 = Ok (Some ([2], [0; 1])) /\
    write_inorder W (fun _ => FAbsent) [0] "a"%string "f"%string WDone = Ok (fs', true) /\
    read_inorder 0 0 W fs' [0] "a"%string "f"%string = Abort.
Proof.
  let r := eval vm_compute in (lrun 0 0 Nat.add Nat.sub Nat.eqb linit [LVar [] (Some (fun k => k)); LInitShape 0 [2]]) in
  match r with Ok ?w => exists w; let r2 := eval vm_compute in (write_inorder w (fun _ => FAbsent) [0] "a"%string "f"%string WDone) in
    match r2 with Ok (?f, _) => exists f end end.
  split; [vm_compute; reflexivity|]. split; [vm_compute; reflexivity|]. split; vm_compute; reflexivity.
Qed.

(** Loading does not check the node it loads into: a node of another shape takes the saved
    shape, and a constant is overwritten. *)
Lemma C35_load_ignores_target_refuted_lemma :
  exists (W W' : @lworld nat) fs',
    lrun 0 0 Nat.add Nat.sub Nat.eqb linit [LVar [2] (Some (fun k => k)); LInit 0; LVar [3] (Some (fun k => 7)); LInit 1; LConst [5] [1]] = Ok W /\
    is_var W 1 /\ observe W 1 = Ok (Some ([3], [7; 7; 7])) /\ is_const W 2 /\ observe W 2 = Ok (Some ([1], [5])) /\
    write_inorder W (fun _ => FAbsent) [0; 0] "a"%string "f"%string WDone = Ok (fs', true) /\
    read_inorder 0 0 W fs' [1; 2] "a"%string "f"%string = Ok (W', [], true) /\
    is_const W' 2 /\ observe W' 1 = Ok (Some ([2], [0; 1])) /\ observe W' 2 = Ok (Some ([2], [0; 1])).
Proof.
  let r := eval vm_compute in (lrun 0 0 Nat.add Nat.sub Nat.eqb linit [LVar [2] (Some (fun k => k)); LInit 0; LVar [3] (Some (fun k => 7)); LInit 1; LConst [5] [1]]) in
  match r with Ok ?w => exists w; let r2 := eval vm_compute in (write_inorder w (fun _ => FAbsent) [0; 0] "a"%string "f"%string WDone) in
    match r2 with Ok (?f, _) => let r3 := eval vm_compute in (read_inorder 0 0 w f [1; 2] "a"%string "f"%string) in
      match r3 with Ok (?w', _, _) => exists w', f end end end.
  split; [vm_compute; reflexivity|]. split; [eexists; eexists; reflexivity|]. split; [vm_compute; reflexivity|]. split; [eexists; reflexivity|].
  split; [vm_compute; reflexivity|]. split; [vm_compute; reflexivity|]. split; [vm_compute; reflexivity|]. split; [eexists; reflexivity|]. split; vm_compute; reflexivity.
Qed.

(** ---- models ---- *)

Section Cmp.
Context {T : Type} (zero junk : T) (add sub : T -> T -> T) (eqb : T -> T -> bool).
Implicit Types W : @lworld T.

Lemma var_leaf W v g : has_kind W v (KVar g) -> is_leaf W v.
Proof. intros H. exists (KVar g). split; auto. discriminate. Qed.

Lemma compound_init_full W fs vars scope f rs r : Good W -> fs f = FRepo r -> NoDup vars -> Forall (is_leaf W) vars ->
  (forall i, i < length vars -> exists p, entry fs f (scope_used scope rs) i = Some p /\ readable p) ->
  exists W', compound_initialize zero junk add sub eqb W fs vars scope f rs = Ok W' /\ Good W' /\
    (forall i v p, nth_error vars i = Some v -> entry fs f (scope_used scope rs) i = Some p -> observe W' v = Ok (Some (p_alloc p, p_data p))) /\
    (forall x, x < length (l_fs W) -> ~ In x vars -> observe W' x = observe W x) /\
    length (l_fs W') = length (l_fs W) /\ (forall j k, has_kind W j k -> has_kind W' j k).
Proof.
  intros HG Er HN HF HR. unfold compound_initialize. fold (scope_used scope rs).
  destruct (read_main zero junk W fs vars (scope_used scope rs) f r HG Er HN HF) as [W' [u [E [G' [H1 [H2 [H3 [H4 [H5 _]]]]]]]]].
  { intros i p Hi Hp. destruct (HR i Hi) as [p' [Hp' Hr]]. congruence. }
  rewrite E. cbn [bind].
  assert (u = []) as ->.
  { destruct u as [|x u]; auto. destruct (proj1 (H2 x) (or_introl eq_refl)) as [i [Hi Hno]]. destruct (HR i) as [p [Hp _]]; [now apply nth_error_lt in Hi|]. congruence. }
  cbn. exists W'. split; auto. split; auto. split; auto. split; auto. intros x Hx Hnx. apply H3; auto. intros i Hi. elim Hnx. eapply nth_error_In; eauto.
Qed.
End Cmp.

(** A model saved and initialised from the file, in the same run or another, under the same
    scope: all its variables have their saved values, other nodes are untouched. *)
Lemma C35_model_round_trip_lemma :
  forall (T : Type) (zero junk : T) add sub eqb (W W1 : lworld) fs fs' vars vars1 scope scope1 f ws rs,
    reach zero junk add sub eqb W -> (forall v, In v vars -> exists s d, savable W v s d) ->
    compound_save W fs vars scope f ws WDone = Ok (fs', true) ->
    reach zero junk add sub eqb W1 -> length vars1 = length vars -> NoDup vars1 -> Forall (is_leaf W1) vars1 ->
    scope_used scope ws = scope_used scope1 rs ->
    exists W2, compound_initialize zero junk add sub eqb W1 fs' vars1 scope1 f rs = Ok W2 /\
      (forall i v v1 s d, nth_error vars i = Some v -> nth_error vars1 i = Some v1 ->
         observe W v = Ok (Some (s, d)) -> observe W2 v1 = Ok (Some (s, d))) /\
      (forall x, x < length (l_fs W1) -> ~ In x vars1 -> observe W2 x = observe W1 x).
Proof.
  intros T zero junk add sub eqb W W1 fs fs' vars vars1 scope scope1 f ws rs HW HS E HW1 HL HN HF1 Hsc.
  pose proof (reach_Good _ _ _ _ _ W HW) as [HI _].
  assert (HF : Forall (fun n => n < length (l_fs W)) vars).
  { apply Forall_forall. intros v Hv. destruct (HS v Hv) as [s [d [Ho _]]]. destruct (observe_inv W v s d HI Ho) as [t [p [k [_ [_ [Hk _]]]]]]. now apply nth_error_lt in Hk. }
  unfold compound_save in E. fold (scope_used scope ws) in E.
  destruct (write_entry W fs vars _ f fs' true HI HF E eq_refl) as [He [[r Hr] _]].
  assert (Hent : forall i v, nth_error vars i = Some v -> exists s d p, observe W v = Ok (Some (s, d)) /\ entry fs' f (scope_used scope ws) i = Some p /\ p_alloc p = s /\ p_data p = d /\ readable p).
  { intros i v Hn. rewrite He, String.eqb_refl, Hn. destruct (HS v (nth_error_In _ _ Hn)) as [s [d Hsv]].
    destruct (savable_msg W v s d HI Hsv) as [p [Hm [Ha [Hd Hrd]]]]. exists s, d, p. rewrite Hm. split; [apply Hsv|]. auto. }
  destruct (compound_init_full zero junk add sub eqb W1 fs' vars1 scope1 f rs r (reach_Good _ _ _ _ _ W1 HW1) Hr HN HF1) as [W2 [E2 [_ [H1 [H2 _]]]]].
  { intros i Hi. rewrite <- Hsc. destruct (nth_error vars i) as [v|] eqn:X; [|apply nth_error_None in X; lia]. destruct (Hent i v X) as [s [d [p [_ [Hp [_ [_ Hrd]]]]]]]. eauto. }
  exists W2. split; auto. split; auto. intros i v v1 s d Hn Hn1 Ho. destruct (Hent i v Hn) as [s' [d' [p [Ho' [Hp [<- [<- _]]]]]]].
  rewrite Ho' in Ho. injection Ho as <- <-. rewrite Hsc in Hp. eapply H1; eauto.
Qed.

(** If the file is missing or unparsable, or lacks an entry for some variable, then every
    variable, also those whose entry was found, ends up with the values of its initialiser
    (file entries of the variables' own shapes). *)
Lemma C35_model_initialize_incomplete_file_lemma :
  forall (T : Type) (zero junk : T) add sub eqb (W : lworld) fs vars scope f rs (sh : nat -> shape) (ini : nat -> nat -> T),
    reach zero junk add sub eqb W -> NoDup vars ->
    (forall v, In v vars -> has_kind W v (KVar (Some (ini v))) /\ shape_of W v (sh v) /\ defined (sh v)) ->
    (forall i v p, nth_error vars i = Some v -> entry fs f (scope_used scope rs) i = Some p -> readable p /\ p_alloc p = sh v) ->
    (fs f = FAbsent \/ corrupt fs f \/ exists i, i < length vars /\ entry fs f (scope_used scope rs) i = None) ->
    exists W', compound_initialize zero junk add sub eqb W fs vars scope f rs = Ok W' /\
      (forall v, In v vars -> observe W' v = Ok (Some (sh v, map (ini v) (seq 0 (n_elems (sh v)))))) /\
      (forall x, x < length (l_fs W) -> ~ In x vars -> observe W' x = observe W x).
Proof.
  intros T zero junk add sub eqb W fs vars scope f rs sh ini HW HN HV HR Hmiss. pose proof (reach_Good _ _ _ _ _ W HW) as HG.
  unfold compound_initialize. fold (scope_used scope rs).
  assert (HF : Forall (is_leaf W) vars) by (apply Forall_forall; intros v Hv; eapply var_leaf; apply (HV v Hv)).
  assert (X : exists W1 u ok, read_inorder zero junk W fs vars (scope_used scope rs) f = Ok (W1, u, ok) /\ (ok && (length u =? 0))%bool = false /\ Good W1 /\
    (forall v, In v vars -> has_kind W1 v (KVar (Some (ini v))) /\ shape_of W1 v (sh v) /\ defined (sh v)) /\ length (l_fs W1) = length (l_fs W) /\
    (forall x, x < length (l_fs W) -> ~ In x vars -> observe W1 x = observe W x)).
  { destruct (fs f) as [| |r] eqn:Er.
    - exists W, vars, false. unfold read_inorder. rewrite Er. repeat (split; auto).
    - exists W, vars, false. unfold read_inorder. rewrite Er. repeat (split; auto).
    - destruct (read_main zero junk W fs vars (scope_used scope rs) f r HG Er HN HF) as [W1 [u [E [G1 [H1 [H2 [H3 [H4 [H5 H6]]]]]]]]].
      { intros i p Hi Hp. destruct (nth_error vars i) as [v|] eqn:X; [|apply nth_error_None in X; lia]. eapply HR; eauto. }
      exists W1, u, true. split; auto. split; [|split; auto; split; [|split; auto]].
      + destruct Hmiss as [C|[C|[i [Hi Hno]]]]; [discriminate|unfold corrupt in C; congruence|].
        destruct (nth_error vars i) as [v|] eqn:X; [|apply nth_error_None in X; lia].
        assert (Hin : In v u) by (apply H2; eauto). destruct u; [destruct Hin|reflexivity].
      + intros v Hv. destruct (HV v Hv) as [Hk [Hs Hd]]. split; auto. split; auto. apply H6; auto. intros i p Hi Hp. eapply HR; eauto.
      + intros x Hx Hnx. apply H3; auto. intros i Hi. elim Hnx. eapply nth_error_In; eauto. }
  destruct X as [W1 [u [ok [E [Eb [G1 [HV1 [HL1 HO1]]]]]]]]. rewrite E. cbn [bind]. rewrite Eb.
  destruct (initialize_all_ok zero junk add sub eqb W1 vars sh ini G1 HN HV1) as [W2 [E2 [_ [H1 [H2 _]]]]].
  exists W2. split; auto. split; auto. intros x Hx Hnx. rewrite H2 by (auto; lia). auto.
Qed.

Lemma target_neq s : s <> ("target_" ++ s)%string.
Proof. intros H. apply (f_equal String.length) in H. cbn in H. lia. Qed.

(** A dq_net saved and initialised from the file under the same non-empty scope: both its
    networks have their saved values; the entries of the two never collide. *)
Lemma C35_dq_round_trip_lemma :
  forall (T : Type) (zero junk : T) add sub eqb (W W1 : lworld) fs fs' src tgt src1 tgt1 brain brain1 scope scope1 f ws rs,
    reach zero junk add sub eqb W -> (forall v, In v (src ++ tgt) -> exists s d, savable W v s d) ->
    dq_save W fs src tgt brain scope f ws WDone WDone = Ok (fs', true) ->
    reach zero junk add sub eqb W1 -> length src1 = length src -> length tgt1 = length tgt ->
    NoDup (src1 ++ tgt1) -> Forall (is_leaf W1) (src1 ++ tgt1) ->
    scope_used scope ws = scope_used scope1 rs -> scope_used scope ws <> ""%string ->
    exists W2, dq_initialize zero junk add sub eqb W1 fs' src1 tgt1 brain1 scope1 f rs = Ok W2 /\
      (forall i v v1 s d, nth_error (src ++ tgt) i = Some v -> nth_error (src1 ++ tgt1) i = Some v1 ->
         observe W v = Ok (Some (s, d)) -> observe W2 v1 = Ok (Some (s, d))) /\
      (forall x, x < length (l_fs W1) -> ~ In x (src1 ++ tgt1) -> observe W2 x = observe W1 x).
Proof.
  intros T zero junk add sub eqb W W1 fs fs' src tgt src1 tgt1 brain brain1 scope scope1 f ws rs HW HS E HW1 HLs HLt HN HF1 Hsc Hne.
  pose proof (reach_Good _ _ _ _ _ W HW) as [HI _].
  assert (HF : forall l, (forall v, In v l -> In v (src ++ tgt)) -> Forall (fun n => n < length (l_fs W)) l).
  { intros l Hl. apply Forall_forall. intros v Hv. destruct (HS v (Hl v Hv)) as [s [d [Ho _]]]. destruct (observe_inv W v s d HI Ho) as [t [p [k [_ [_ [Hk _]]]]]]. now apply nth_error_lt in Hk. }
  assert (HFs := HF src (fun v H => in_or_app _ _ _ (or_introl H))). assert (HFt := HF tgt (fun v H => in_or_app _ _ _ (or_intror H))).
  unfold dq_save in E. fold (scope_used scope ws) in E. set (sc := scope_used scope ws) in *.
  assert (Hse : String.eqb sc "" = false) by (destruct (String.eqb_spec sc ""); congruence).
  unfold compound_save in E. rewrite Hse in E. cbn [append String.eqb] in E.
  destruct (write_inorder W fs src sc f WDone) as [[fs1 ok1]| | |] eqn:E1; try discriminate. cbn [bind fst snd] in E.
  destruct (write_inorder W fs1 tgt ("target_" ++ sc) f WDone) as [[fs2 ok2]| | |] eqn:E2; try discriminate; cbn [append] in E2; rewrite E2 in E; try discriminate. cbn [bind fst snd] in E.
  injection E as <- Eok. apply andb_prop in Eok as [-> ->].
  destruct (write_entry W fs src sc f fs1 true HI HFs E1 eq_refl) as [He1 [[r1 Hr1] _]].
  destruct (write_entry W fs1 tgt ("target_" ++ sc) f fs2 true HI HFt E2 eq_refl) as [He2 [[r2 Hr2] _]].
  assert (Hsv : forall i v l, nth_error l i = Some v -> (forall v, In v l -> In v (src ++ tgt)) -> exists s d p, observe W v = Ok (Some (s, d)) /\ msg W v = Some p /\ p_alloc p = s /\ p_data p = d /\ readable p).
  { intros i v l Hn Hl. destruct (HS v (Hl v (nth_error_In _ _ Hn))) as [s [d Hsv]]. destruct (savable_msg W v s d HI Hsv) as [p [Hm [Ha [Hd Hrd]]]]. exists s, d, p. split; [apply Hsv|]. auto. }
  assert (Es : forall i v, nth_error src i = Some v -> entry fs2 f sc i = msg W v).
  { intros i v Hn. rewrite He2. destruct (String.eqb_spec sc ("target_" ++ sc)) as [C|_]; [elim (target_neq _ C)|].
    rewrite He1, String.eqb_refl, Hn. destruct (Hsv i v src Hn (fun v H => in_or_app _ _ _ (or_introl H))) as [s [d [p [_ [-> _]]]]]. reflexivity. }
  assert (Et : forall i v, nth_error tgt i = Some v -> entry fs2 f ("target_" ++ sc) i = msg W v).
  { intros i v Hn. rewrite He2, String.eqb_refl, Hn. destruct (Hsv i v tgt Hn (fun v H => in_or_app _ _ _ (or_intror H))) as [s [d [p [_ [-> _]]]]]. reflexivity. }
  pose proof HF1 as HFa. apply Forall_app in HFa as [HFs1 HFt1].
  assert (HNs : NoDup src1 /\ NoDup tgt1 /\ forall x, In x src1 -> ~ In x tgt1).
  { clear - HN. induction src1 as [|x l IH]; cbn in HN; [repeat split; auto; constructor|]. apply NoDup_cons_iff in HN as [Hx HN]. destruct (IH HN) as [A [B C]]. rewrite in_app_iff in Hx.
    split; [constructor; tauto|]. split; auto. intros y [<-|Hy]; [tauto|auto]. }
  destruct HNs as [HNs [HNt Hdis]].
  unfold dq_initialize. fold (scope_used scope1 rs). rewrite <- Hsc.
  destruct (compound_init_full zero junk add sub eqb W1 fs2 src1 brain1 f sc r2 (reach_Good _ _ _ _ _ W1 HW1) Hr2 HNs HFs1) as [W2 [EA [G2 [A1 [A2 [A3 A4]]]]]].
  { intros i Hi. unfold scope_used at 1. rewrite Hse. destruct (nth_error src i) as [v|] eqn:X; [|apply nth_error_None in X; lia]. rewrite (Es i v X).
    destruct (Hsv i v src X (fun v H => in_or_app _ _ _ (or_introl H))) as [s [d [p [_ [-> [_ [_ Hr]]]]]]]. eauto. }
  assert (HFt2 : Forall (is_leaf W2) tgt1).
  { eapply Forall_impl; [|exact HFt1]. intros v [k [Hk Hkn]]. exists k. auto. }
  destruct (compound_init_full zero junk add sub eqb W2 fs2 tgt1 ("target_" ++ scope1) f ("target_" ++ sc) r2 G2 Hr2 HNt HFt2) as [W3 [EB [G3 [B1 [B2 [B3 B4]]]]]].
  { intros i Hi. change (scope_used ("target_" ++ scope1) ("target_" ++ sc)) with ("target_" ++ sc)%string. destruct (nth_error tgt i) as [v|] eqn:X; [|apply nth_error_None in X; lia]. rewrite (Et i v X).
    destruct (Hsv i v tgt X (fun v H => in_or_app _ _ _ (or_intror H))) as [s [d [p [_ [-> [_ [_ Hr]]]]]]]. eauto. }
  exists W3. unfold scope_used at 1 in A1. rewrite Hse in A1. change (scope_used ("target_" ++ scope1) ("target_" ++ sc)) with ("target_" ++ sc)%string in B1.
  split; [rewrite EA; cbn [bind]; exact EB|]. split.
  - intros i v v1 s d Hn Hn1 Ho. destruct (Nat.lt_ge_cases i (length src)) as [Hi|Hi].
    + rewrite nth_error_app1 in Hn by auto. rewrite nth_error_app1 in Hn1 by lia.
      destruct (Hsv i v src Hn (fun v H => in_or_app _ _ _ (or_introl H))) as [s' [d' [p [Ho' [Hm [<- [<- _]]]]]]]. rewrite Ho' in Ho. injection Ho as <- <-.
      assert (Hin : In v1 src1) by (eapply nth_error_In; eauto).
      assert (Hlt : v1 < length (l_fs W2)). { rewrite A3. rewrite Forall_forall in HFs1. destruct (HFs1 v1 Hin) as [k [[b Hk] _]]. now apply nth_error_lt in Hk. }
      rewrite (B2 v1 Hlt (Hdis v1 Hin)). eapply A1; eauto. now rewrite (Es i v Hn).
    + rewrite nth_error_app2 in Hn by auto. rewrite nth_error_app2 in Hn1 by lia. rewrite HLs in Hn1.
      destruct (Hsv _ v tgt Hn (fun v H => in_or_app _ _ _ (or_intror H))) as [s' [d' [p [Ho' [Hm [<- [<- _]]]]]]]. rewrite Ho' in Ho. injection Ho as <- <-.
      eapply B1; eauto. now rewrite (Et _ v Hn).
  - intros x Hx Hnx. rewrite in_app_iff in Hnx. rewrite B2 by (try lia; tauto). apply A2; tauto.
Qed.

(** The hypotheses hold of, and the results are as stated on, a concrete history: three
    variables, one not initialised, saved under a label containing a colon next to an older
    entry, then loaded in a program with other values. *)
Lemma C35_nonvacuous_lemma :
  exists (W W1 W2 : @lworld nat) fs',
    reach 0 0 Nat.add Nat.sub Nat.eqb W /\ reach 0 0 Nat.add Nat.sub Nat.eqb W1 /\
    savable W 0 [2] [3; 4] /\ observe W 1 = Ok None /\ savable W 2 [2; 2] [0; 1; 2; 3] /\ ~ corrupt (fun _ => FRepo [("a:1", mkP [9] [1] [1])])%string "f"%string /\
    write_inorder W (fun _ => FRepo [("a:1", mkP [9] [1] [1])])%string [0; 1; 2] "a:1"%string "f"%string WDone = Ok (fs', true) /\
    entry fs' "f"%string "a"%string 1 = Some (mkP [9] [1] [1]) /\
    Forall (is_leaf W1) [2; 0; 1] /\ observe W1 1 = Ok (Some ([2; 2], [7; 7; 7; 7])) /\
    read_inorder 0 0 W1 fs' [2; 0; 1] "a:1"%string "f"%string = Ok (W2, [0], true) /\
    observe W2 2 = Ok (Some ([2], [3; 4])) /\ observe W2 0 = Ok (Some ([1], [5])) /\ observe W2 1 = Ok (Some ([2; 2], [0; 1; 2; 3])).
Proof.
  let r := eval vm_compute in (lrun 0 0 Nat.add Nat.sub Nat.eqb linit [LVar [2] (Some (fun k => 3 + k)); LVar [3] None; LVar [2; 2] (Some (fun k => k)); LInit 0; LInit 2]) in
  match r with Ok ?w =>
  let r1 := eval vm_compute in (lrun 0 0 Nat.add Nat.sub Nat.eqb linit [LVarScalar 5; LVar [2; 2] (Some (fun k => 7)); LInit 1; LPlace [2]]) in
  match r1 with Ok ?w1 =>
  let r2 := eval vm_compute in (write_inorder w (fun _ => FRepo [("a:1", mkP [9] [1] [1])])%string [0; 1; 2] "a:1"%string "f"%string WDone) in
  match r2 with Ok (?f, _) =>
  let r3 := eval vm_compute in (read_inorder 0 0 w1 f [2; 0; 1] "a:1"%string "f"%string) in
  match r3 with Ok (?w2, _, _) => exists w, w1, w2, f end end end end.
  assert (LR : forall ops W0 W', reach 0 0 Nat.add Nat.sub Nat.eqb W0 -> lrun 0 0 Nat.add Nat.sub Nat.eqb W0 ops = Ok W' -> reach 0 0 Nat.add Nat.sub Nat.eqb W').
  { induction ops as [|o ops IH]; intros W0 W' H E; cbn [lrun] in E; [injection E as <-; auto|].
    destruct (lstep 0 0 Nat.add Nat.sub Nat.eqb W0 o) as [w| | |] eqn:Eo; try discriminate. eapply IH; [|exact E]. eapply reach_step; eauto. }
  split. { apply (LR [LVar [2] (Some (fun k => 3 + k)); LVar [3] None; LVar [2; 2] (Some (fun k => k)); LInit 0; LInit 2] linit); [constructor|vm_compute; reflexivity]. }
  split. { apply (LR [LVarScalar 5; LVar [2; 2] (Some (fun k => 7)); LInit 1; LPlace [2]] linit); [constructor|vm_compute; reflexivity]. }
  split. { split; [vm_compute; reflexivity|]. eexists. split; [reflexivity|]. split; reflexivity. }
  split; [vm_compute; reflexivity|].
  split. { split; [vm_compute; reflexivity|]. eexists. split; [reflexivity|]. split; reflexivity. }
  split; [intros C; discriminate C|]. split; [vm_compute; reflexivity|]. split; [vm_compute; reflexivity|].
  split. { repeat (apply Forall_cons; [eexists; split; [eexists; reflexivity|discriminate]|]). constructor. }
  split; [vm_compute; reflexivity|]. split; [vm_compute; reflexivity|]. split; [vm_compute; reflexivity|]. split; vm_compute; reflexivity.
Qed.
