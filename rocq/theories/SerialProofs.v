(** Auxiliary lemmas about saving and loading. *)
From Coq Require Import String Ascii DecimalString DecimalNat.
From Verif Require Import Common ShapeModel ShapeSpec ShapeProofs FitModel TensorModel TensorSpec TensorProofs TensorDataLaws LeafModel LeafSpec LeafProofs LeafLaws SerialModel SerialSpec.
Local Open Scope list_scope.

(** ---- keys ---- *)
Lemma split_last {A} (c : A) a b x y : ~ In c x -> ~ In c y -> a ++ c :: x = b ++ c :: y -> a = b /\ x = y.
Proof.
  revert b. induction a as [|u a IH]; intros [|v b] Hx Hy E; cbn in E.
  - injection E as E. auto.
  - exfalso. injection E as _ E. apply Hx. rewrite E. apply in_or_app. right. left. reflexivity.
  - exfalso. injection E as _ E. apply Hy. rewrite <- E. apply in_or_app. right. left. reflexivity.
  - injection E as <- E. destruct (IH b Hx Hy E) as [-> ->]. auto.
Qed.

Lemma las_app a b : list_ascii_of_string (a ++ b)%string = list_ascii_of_string a ++ list_ascii_of_string b.
Proof. induction a as [|c a IH]; cbn; congruence. Qed.
Lemma las_inj a b : list_ascii_of_string a = list_ascii_of_string b -> a = b.
Proof. intros H. rewrite <- (string_of_list_ascii_of_string a), <- (string_of_list_ascii_of_string b). now rewrite H. Qed.

Lemma no_colon u : ~ In ":"%char (list_ascii_of_string (NilEmpty.string_of_uint u)).
Proof. induction u; cbn; auto; intros [H|H]; auto; discriminate. Qed.

Lemma to_string_inj i j : to_string i = to_string j -> i = j.
Proof.
  unfold to_string. intros H. apply (f_equal NilEmpty.uint_of_string) in H. rewrite !NilEmpty.usu in H. injection H as H.
  apply (f_equal Nat.of_uint) in H. now rewrite !Unsigned.of_to in H.
Qed.

Lemma node_label_inj l i l' j : node_label l i = node_label l' j -> l = l' /\ i = j.
Proof.
  intros H. apply (f_equal list_ascii_of_string) in H. unfold node_label in H. rewrite !las_app in H. cbn [list_ascii_of_string app] in H.
  apply split_last in H as [H1 H2]; try apply no_colon. split; [now apply las_inj|]. now apply to_string_inj, las_inj.
Qed.

Section P.
Context {T : Type} (zero junk : T) (add sub : T -> T -> T) (eqb : T -> T -> bool).
Implicit Types W : @lworld T.
Implicit Types r : repository T.

Lemma find_put_eq r k p : map_find (map_put r k p) k = Some p.
Proof. cbn. now rewrite String.eqb_refl. Qed.
Lemma find_put_neq r k p k' : k <> k' -> map_find (map_put r k p) k' = map_find r k'.
Proof.
  intros H. cbn. destruct (String.eqb_spec k k') as [->|_]; [congruence|].
  induction r as [|[a q] r IH]; cbn; auto. destruct (String.eqb_spec a k) as [->|Ha]; cbn.
  - destruct (String.eqb_spec k k'); [congruence|auto].
  - destruct (String.eqb a k'); auto.
Qed.

(** the message a node is saved as *)
Definition msg W (node : nat) : option (proto T) :=
  match leaf_eval W node with
  | Ok (Some t) => match t_serialize (lheap W) t with Ok (Some p) => Some p | Ok None => Some (mkP [] [] []) | _ => None end
  | _ => None
  end.

Lemma put_nodes_ok W nodes label repo : LInv W -> Forall (fun n => n < length (l_fs W)) nodes ->
  exists repo', put_nodes W nodes label repo = Ok repo' /\
    forall l i, map_find repo' (node_label l i) =
      match (if String.eqb l label then nth_error nodes i else None) with
      | Some node => match msg W node with Some p => Some p | None => map_find repo (node_label l i) end
      | None => map_find repo (node_label l i)
      end.
Proof.
  intros HI HF. unfold put_nodes.
  match goal with |- exists _, for_ ?n ?body _ = _ /\ _ =>
    destruct (for_inv (fun j rp => forall l i, map_find rp (node_label l i) =
      match (if String.eqb l label then (if i <? j then nth_error nodes i else None) else None) with
      | Some node => match msg W node with Some p => Some p | None => map_find repo (node_label l i) end
      | None => map_find repo (node_label l i)
      end) body n repo) as [rp [E H]] end.
  - intros l i. destruct (String.eqb l label); reflexivity.
  - intros j rp Hj Hrp. destruct (rd_lt nodes j Hj) as [node [Hn En]]. rewrite En. cbn [bind].
    rewrite Forall_forall in HF. pose proof (HF node (nth_error_In _ _ Hn)) as Hlt.
    destruct (nth_error (l_fs W) node) as [f|] eqn:Hf; [|apply nth_error_None in Hf; lia].
    destruct (LInv_alive W node f HI Hf) as [t Ha].
    assert (Ee : leaf_eval W node = Ok (if l_init f then Some t else None)) by (unfold leaf_eval, lf; now rewrite (rd_ok _ _ _ Hf), (lookup_ok _ _ _ Ha)).
    rewrite Ee. cbn [bind].
    assert (Other : forall l i, ~ (l = label /\ i = j) -> (if String.eqb l label then if i <? S j then nth_error nodes i else None else None) = (if String.eqb l label then if i <? j then nth_error nodes i else None else None)).
    { intros l i Hne. destruct (String.eqb_spec l label) as [->|]; auto. destruct (Nat.ltb_spec i (S j)), (Nat.ltb_spec i j); auto; try lia. exfalso. apply Hne. split; auto; lia. }
    destruct (l_init f) eqn:Hin.
    + assert (Es : exists o, t_serialize (lheap W) t = Ok o).
      { unfold t_serialize. destruct (is_alloc t) eqn:A; [|eauto]. destruct (wf_holdsb _ _ (LInv_wf W node t HI Ha) A) as [p [b Hb]]. rewrite (holdsb_expose _ _ _ _ Hb). cbn. eauto. }
      destruct Es as [o Es]. rewrite Es. cbn [bind]. eexists. split; [reflexivity|]. intros l i.
      assert (Em : msg W node = Some (match o with Some p => p | None => mkP [] [] [] end)) by (unfold msg; rewrite Ee, Es; destruct o; reflexivity).
      destruct (string_dec (node_label l i) (node_label label j)) as [El|Hne].
      * apply node_label_inj in El as [-> ->]. rewrite find_put_eq, String.eqb_refl. destruct (Nat.ltb_spec j (S j)); [|lia]. now rewrite Hn, Em.
      * rewrite find_put_neq by auto. rewrite Hrp, Other; auto. intros [-> ->]. auto.
    + eexists. split; [reflexivity|]. intros l i.
      assert (Em : msg W node = None) by (unfold msg; now rewrite Ee).
      destruct (string_dec (node_label l i) (node_label label j)) as [El|Hne].
      * apply node_label_inj in El as [-> ->]. rewrite Hrp, String.eqb_refl. destruct (Nat.ltb_spec j j); [lia|]. destruct (Nat.ltb_spec j (S j)); [|lia]. now rewrite Hn, Em.
      * rewrite Hrp, Other; auto. intros [-> ->]. auto.
  - exists rp. split; auto. intros l i. rewrite H. destruct (String.eqb l label); auto. destruct (Nat.ltb_spec i (length nodes)) as [Hi|Hi]; auto.
    apply nth_error_None in Hi. now rewrite Hi.
Qed.

Lemma msg_value W node s d : LInv W -> observe W node = Ok (Some (s, d)) ->
  exists t, alive (l_w W) node t /\ alloc_shape t = s /\ msg W node = Some (mkP d (allowed_shape t) s) /\ length d = n_elems s /\ defined s.
Proof.
  intros HI Ho. destruct (observe_inv W node s d HI Ho) as [t [p [k [Ha [Hb [Hk Hs]]]]]]. exists t. split; auto. split; auto.
  unfold msg, leaf_eval, lf. rewrite (rd_ok _ _ _ Hk), (lookup_ok _ _ _ Ha). cbn [bind l_init]. unfold t_serialize.
  rewrite (holdsb_alloc _ _ _ _ Hb), (holdsb_expose _ _ _ _ Hb). cbn [bind]. rewrite Hs. split; auto. rewrite <- Hs. split; apply Hb.
Qed.
Lemma msg_none W node : observe W node = Ok None -> msg W node = None.
Proof.
  intros Ho. unfold observe in Ho. unfold msg. destruct (leaf_eval W node) as [[t|]| | |]; auto. cbn [bind] in Ho. destruct (t_expose (lheap W) t); discriminate.
Qed.

(** ---- reading ---- *)
Lemma is_leaf_lset W h i t f k j b : nth_error (l_fs W) i = Some f -> k = l_kind f -> is_leaf W j -> is_leaf (lset W h i t k b) j.
Proof.
  intros Hf -> [kj [[bj Hj] Hne]]. destruct (Nat.eq_dec j i) as [->|Hn].
  - rewrite Hf in Hj. injection Hj as ->. exists kj. split; auto. exists b. cbn [l_kind]. apply fs_lset. now apply nth_error_lt in Hf.
  - exists kj. split; auto. exists bj. cbn [lset l_fs]. rewrite nth_error_set_nth_neq by lia; auto.
Qed.

Lemma observe_shape W i s d : LInv W -> observe W i = Ok (Some (s, d)) -> shape_of W i s.
Proof.
  intros HI Ho. destruct (observe_inv W i s d HI Ho) as [t [p [k [Ha [Hb [_ Hs]]]]]]. exists t. split; auto. now rewrite (holdsb_shape _ _ _ _ Hb).
Qed.

Lemma read_proto_ok W node p : Good W -> is_leaf W node -> readable p ->
  exists W', read_proto zero junk W node p = Ok (W', true) /\ Good W' /\ observe W' node = Ok (Some (p_alloc p, p_data p)) /\
    others_same W W' node /\ tags W' = tags W /\ length (l_fs W') = length (l_fs W) /\ (forall j, is_leaf W j -> is_leaf W' j) /\
    (forall j k, has_kind W j k -> has_kind W' j k) /\ (forall j s, j <> node -> shape_of W j s -> shape_of W' j s).
Proof.
  intros HG [k [[b Hk] Hne]] [Hr [Hc [Hd Hdef]]]. pose proof HG as [HI HU]. destruct (LInv_alive W node _ HI Hk) as [t Ha].
  destruct (t_from_proto_ok zero junk (lheap W) t p (LInv_wf _ _ _ HI Ha) Hr) as [h' [t' [ok [E [L [Ht Hf]]]]]]; [lia|].
  assert (ok = true) as ->. { destruct ok; auto. destruct (Hf eq_refl) as [_ [_ [_ [_ [C|C]]]]]; [congruence|contradiction]. }
  destruct (Ht eq_refl) as [H1 [H2 [_ [_ [q [b' [Hq [Hn Hd']]]]]]]].
  assert (Hb : holdsb h' t' q (p_data p)).
  { destruct L as [_ [_ [_ L4]]]. destruct (L4 q Hq) as [_ [b2 [Hb2 [Hl2 D2]]]]. rewrite Hn in Hb2. injection Hb2 as <-.
    assert (b' = p_data p) as ->.
    { apply nth_error_ext_lt; [rewrite Hl2, H2; lia|]. intros i Hi. apply Hd'. rewrite Hl2, H2 in Hi. lia. }
    split; auto. }
  exists (lnotify (lset W h' node t' k true) node). unfold read_proto, lf. rewrite (rd_ok _ _ _ Hk). cbn [bind l_kind].
  assert (Ex : (t0 <- lookup (l_w W) node;; r <- t_from_proto false zero junk (lheap W) t0 p;; (let '(h, t'0, success) := r in if success then Ok (lnotify (lset W h node t'0 k true) node, true) else Ok (lset W h node t'0 k b, false))) = Ok (lnotify (lset W h' node t' k true) node, true)).
  { rewrite (lookup_ok _ _ _ Ha). cbn [bind]. rewrite E. reflexivity. }
  split. { destruct k; try congruence; exact Ex. }
  assert (Hlt : node < length (l_fs W)) by now apply nth_error_lt in Hk.
  assert (Et : tags (lset W h' node t' k true) = tags W) by (eapply tags_lset; eauto).
  split; [split|].
  - apply LInv_lnotify. eapply LInv_lset; eauto. intros R. congruence.
  - eapply UInv_same; [exact Et|reflexivity|exact HU].
  - split. { rewrite <- H2. change (observe (lnotify (lset W h' node t' k true) node) node) with (observe (lset W h' node t' k true) node).
             eapply (observe_holds _ node t' q _ k); [eapply alive_lset; eauto|exact Hb|now apply fs_lset]. }
    split; [exact (observe_frame_lset W h' node t t' k true HI Ha L)|]. split; auto.
    split; [cbn [lnotify lset l_fs]; now rewrite length_set_nth|]. split.
    + intros j Hj. eapply (is_leaf_lset W h' node t' _ k j true Hk eq_refl Hj).
    + split.
      * intros j kj [bj Hj]. destruct (Nat.eq_dec j node) as [->|Hnj].
        -- rewrite Hk in Hj. injection Hj as <- _. exists true. cbn [lnotify]. now apply fs_lset.
        -- exists bj. cbn [lnotify lset l_fs]. rewrite nth_error_set_nth_neq by lia; auto.
      * intros j s0 Hj [tj [Haj Hs]]. exists tj. split; auto. unfold alive in *. cbn [lnotify lset l_w put w_ts]. rewrite nth_error_set_nth_neq by lia; auto.
Qed.

Definition restored W W' (repo : repository T) label nodes : Prop :=
  forall i node, nth_error nodes i = Some node ->
    match map_find repo (node_label label i) with
    | Some p => observe W' node = Ok (Some (p_alloc p, p_data p))
    | None => observe W' node = observe W node
    end.

Lemma read_nodes_ok W repo nodes label : Good W -> NoDup nodes -> Forall (is_leaf W) nodes ->
  (forall i p, i < length nodes -> map_find repo (node_label label i) = Some p -> readable p) ->
  exists W', read_nodes zero junk repo nodes label W =
      Ok (W', map snd (filter (fun e => match map_find repo (node_label label (fst e)) with None => true | _ => false end) (combine (seq 0 (length nodes)) nodes))) /\
    Good W' /\ restored W W' repo label nodes /\ (forall j, ~ In j nodes -> j < length (l_fs W) -> observe W' j = observe W j) /\
    length (l_fs W') = length (l_fs W) /\ (forall j k, has_kind W j k -> has_kind W' j k) /\
    (forall j s, (forall i p, nth_error nodes i = Some j -> map_find repo (node_label label i) = Some p -> p_alloc p = s) -> shape_of W j s -> shape_of W' j s).
Proof.
  intros HG HN HF HM. unfold read_nodes.
  set (unf := fun j => map snd (filter (fun e => match map_find repo (node_label label (fst e)) with None => true | _ => false end) (combine (seq 0 j) (firstn j nodes)))).
  match goal with |- exists _, for_ ?n ?body _ = _ /\ _ =>
    destruct (for_inv (fun j st => exists W', st = (W', unf j) /\ Good W' /\ (forall x, is_leaf W x -> is_leaf W' x) /\ length (l_fs W') = length (l_fs W) /\
        (forall x k, has_kind W x k -> has_kind W' x k) /\
        (forall x s, (forall i p, nth_error nodes i = Some x -> map_find repo (node_label label i) = Some p -> p_alloc p = s) -> shape_of W x s -> shape_of W' x s) /\
        (forall x, (forall i, i < j -> nth_error nodes i <> Some x) -> x < length (l_fs W) -> observe W' x = observe W x) /\
        (forall i node, i < j -> nth_error nodes i = Some node -> match map_find repo (node_label label i) with
          | Some p => observe W' node = Ok (Some (p_alloc p, p_data p)) | None => observe W' node = observe W node end)) body n (W, [])) as [st [E H]] end.
  - exists W. do 7 (split; auto). intros; lia.
  - intros j st Hj [W1 [-> [G1 [L1 [N1 [K1 [S1 [O1 R1]]]]]]]]. destruct (rd_lt nodes j Hj) as [node [Hn En]]. rewrite En. cbn [bind].
    assert (Hun : unf (S j) = unf j ++ (match map_find repo (node_label label j) with None => [node] | Some _ => [] end)).
    { unfold unf. rewrite seq_S. cbn [plus].
      assert (Ef : firstn (S j) nodes = firstn j nodes ++ [node]).
      { clear - Hn. revert j Hn. induction nodes as [|x l IH]; intros [|j] H; cbn in *; try discriminate; [congruence|]. now rewrite IH. }
      rewrite Ef. assert (Ec : combine (seq 0 j ++ [j]) (firstn j nodes ++ [node]) = combine (seq 0 j) (firstn j nodes) ++ [(j, node)]).
      { assert (HL : length (seq 0 j) = length (firstn j nodes)) by (rewrite seq_length, firstn_length; lia).
        revert HL. generalize (seq 0 j) (firstn j nodes). induction l as [|x l IH]; intros [|y l'] HL; cbn in *; try lia; auto. rewrite IH by lia. reflexivity. }
      rewrite Ec, filter_app, map_app. f_equal. cbn. destruct (map_find repo (node_label label j)); reflexivity. }
    assert (Fresh : forall i, i < j -> nth_error nodes i <> Some node).
    { intros i Hi C. pose proof (proj1 (NoDup_nth_error nodes) HN i j) as X. rewrite C, Hn in X. specialize (X ltac:(lia) eq_refl). lia. }
    assert (Hleaf : is_leaf W node) by (rewrite Forall_forall in HF; apply HF; eapply nth_error_In; eauto).
    assert (Hltn : node < length (l_fs W)) by (destruct Hleaf as [k [[b Hk] _]]; now apply nth_error_lt in Hk).
    destruct (map_find repo (node_label label j)) as [p|] eqn:Ep.
    + destruct (read_proto_ok W1 node p G1 (L1 node Hleaf) (HM j p Hj Ep)) as [W2 [E2 [G2 [Ob [Oth [Tg [Ln [Lf [Kd Sh]]]]]]]]]. rewrite E2. cbn [bind].
      eexists. split; [reflexivity|]. exists W2. rewrite Hun, app_nil_r. split; auto. split; auto. split; [auto|]. split; [lia|]. split; [auto|]. split;
        [intros x sx Hx Hs; destruct (Nat.eq_dec x node) as [->|Hxn]; [rewrite <- (Hx j p Hn Ep); exact (observe_shape _ _ _ _ (proj1 G2) Ob)|apply Sh; auto]|]. split.
      * intros x Hx Hlt. assert (x <> node) by (intros ->; apply (Hx j); auto). rewrite (Oth x) by (auto; lia). apply O1; auto.
      * intros i nd Hi Hnd. destruct (Nat.eq_dec i j) as [->|Hij].
        -- rewrite Hn in Hnd. injection Hnd as <-. rewrite Ep. exact Ob.
        -- assert (Hne : nd <> node) by (intros ->; apply (Fresh i); auto; lia).
           assert (nd < length (l_fs W)). { rewrite Forall_forall in HF. destruct (HF nd (nth_error_In _ _ Hnd)) as [k [[b Hk] _]]. now apply nth_error_lt in Hk. }
           specialize (R1 i nd ltac:(lia) Hnd). rewrite (Oth nd) by (auto; lia). exact R1.
    + eexists. split; [reflexivity|]. exists W1. rewrite Hun. do 6 (split; auto). split.
      * intros x Hx Hlt. apply O1; auto.
      * intros i nd Hi Hnd. destruct (Nat.eq_dec i j) as [->|Hij].
        -- rewrite Hn in Hnd. injection Hnd as <-. rewrite Ep. apply O1; auto.
        -- apply R1; auto. lia.
  - destruct H as [W' [-> [G' [L' [N' [K' [S' [O' R']]]]]]]]. exists W'. unfold unf in E. rewrite firstn_all in E. split; [exact E|]. split; auto. split.
    + intros i node Hi. apply R'; auto. now apply nth_error_lt in Hi.
    + split; [|auto]. intros j Hj Hlt. apply O'; auto. intros i _ C. apply Hj. eapply nth_error_In; eauto.
Qed.

(** ---- any message ---- *)
Lemma from_proto_empty h t p h' t' ok : wf h t -> (raw t = None -> alloc_shape t = []) ->
  t_from_proto false zero junk h t p = Ok (h', t', ok) -> raw t' = None -> alloc_shape t' = [].
Proof.
  intros W He E. unfold t_from_proto in E. destruct (assert_ (length (p_alloc p) =? length (p_allow p))); try discriminate. cbn [bind allowed_shape raw alloc_shape] in E.
  destruct (is_compatible_with (p_alloc p) (p_allow p)) as [c| | |]; try discriminate. cbn [bind] in E.
  destruct (negb c || negb (is_fully_defined (p_alloc p))).
  { injection E as <- <- <-. exact He. }
  set (t1 := mkT (raw t) (alloc_shape t) (p_allow p)) in *.
  assert (W1 : wf h t1) by (intros q Hq; apply (W q Hq)).
  destruct (t_deallocate_ok h t1 W1) as [h1 [t2 [okd [Ed [L1 [Al R1]]]]]]. rewrite Ed in E. cbn [bind] in E. rewrite R1 in E.
  set (t3 := mkT None (p_alloc p) (allowed_shape t2)) in *.
  assert (W3 : wf h1 t3) by (intros q Hq; discriminate).
  destruct (t_allocate_ok zero junk h1 t3 W3) as [h2 [t4 [oka [Ea [L2 [_ [_ Ht]]]]]]]. rewrite Ea in E. cbn [bind] in E.
  destruct oka; [|discriminate]. cbn [assert_ bind] in E. destruct (Ht eq_refl) as [A _]. apply is_alloc_iff in A as [_ [q Hq]]. rewrite Hq in E.
  destruct (hget h2 q) as [b| | |]; try discriminate. cbn [bind] in E. destruct (memcpy b 0 (p_data p) 0 (length (p_data p))); try discriminate. cbn [bind] in E.
  injection E as <- <- <-. congruence.
Qed.

Lemma read_proto_good W node p W' ok : Good W -> read_proto zero junk W node p = Ok (W', ok) -> Good W'.
Proof.
  intros [HI HU] E. unfold read_proto, lf in E. destruct (rd (l_fs W) node) as [f| | |] eqn:Ef; try discriminate. cbn [bind] in E. apply rd_Ok_inv in Ef.
  destruct (LInv_alive W node f HI Ef) as [t Ha].
  assert (X : (exists h t' b, W' = lset W h node t' (l_kind f) b /\ local (lheap W) t h t' /\ (raw t' = None -> alloc_shape t' = []) \/
                              W' = lnotify (lset W h node t' (l_kind f) b) node /\ local (lheap W) t h t' /\ (raw t' = None -> alloc_shape t' = [])) \/ W' = W).
  { rewrite (lookup_ok _ _ _ Ha) in E. cbn [bind] in E.
    destruct (t_from_proto false zero junk (lheap W) t p) as [[[h t'] s]| | |] eqn:Et; cbn [bind] in E.
    2-4: destruct (l_kind f); try discriminate; injection E as <- _; auto.
    pose proof (t_from_proto_inv zero junk _ _ _ _ _ _ (LInv_wf _ _ _ HI Ha) Et) as L.
    assert (He : raw t = None -> alloc_shape t = []) by (destruct HI as [_ [_ [_ He]]]; now apply (He node)).
    pose proof (from_proto_empty _ _ _ _ _ _ (LInv_wf _ _ _ HI Ha) He Et) as He'.
    destruct (l_kind f) eqn:Ek; [injection E as <- _; auto| | |]; left; destruct s; injection E as <- _; exists h, t'; eauto 10. }
  destruct X as [[h [t' [b [[-> [L He]]|[-> [L He]]]]]]| ->]; [| |split; auto].
  - split; [eapply LInv_lset; eauto|]. apply (UInv_same W _); [eapply (tags_lset W h node t'); eauto|reflexivity|exact HU].
  - split; [apply LInv_lnotify; eapply LInv_lset; eauto|]. apply (UInv_same W _); [eapply (tags_lset W h node t'); eauto|reflexivity|exact HU].
Qed.

Lemma read_inorder_good W fs nodes label f W' u b : Good W -> read_inorder zero junk W fs nodes label f = Ok (W', u, b) -> Good W'.
Proof.
  intros HG E. unfold read_inorder in E. destruct (fs f) as [| |repo]; [injection E as <- _ _; auto|injection E as <- _ _; auto|].
  destruct (read_nodes zero junk repo nodes label W) as [[W1 u1]| | |] eqn:E1; try discriminate. cbn [bind] in E. injection E as <- _ _.
  unfold read_nodes, for_ in E1. revert E1. match goal with |- forloop _ _ ?body (W, ?l0) = _ -> _ => set (bd := body); generalize l0 end. generalize (length nodes) 0. intros n. revert W HG. induction n as [|n IH]; intros W HG i l E1; cbn [forloop] in E1; [injection E1 as <- _; auto|]. unfold bd at 1 in E1.
  destruct (rd nodes i) as [node| | |]; try discriminate. cbn [bind] in E1.
  destruct (map_find repo (node_label label i)) as [p|]; [|exact (IH W HG _ _ E1)].
  destruct (read_proto zero junk W node p) as [[W2 s]| | |] eqn:E2; try discriminate. cbn [bind] in E1. eapply IH; [|exact E1]. eapply read_proto_good; eauto.
Qed.

Lemma reach_Good W : reach zero junk add sub eqb W -> Good W.
Proof.
  induction 1 as [|W o W' H IH E|W fs nodes label f W' u b H IH E].
  - apply Good_init.
  - eapply lstep_post; eauto.
  - eapply read_inorder_good; eauto.
Qed.

(** ---- initialize_all ---- *)
Lemma init_step W i s f : Good W -> has_kind W i (KVar (Some f)) -> shape_of W i s -> defined s ->
  exists W', lstep zero junk add sub eqb W (LInit i) = Ok W' /\ observe W' i = Ok (Some (s, map f (seq 0 (n_elems s)))) /\ others_same W W' i /\
    length (l_fs W') = length (l_fs W) /\ (forall j k, has_kind W j k -> has_kind W' j k) /\ (forall j s', j <> i -> shape_of W j s' -> shape_of W' j s').
Proof.
  intros [HI HU] [b Hf] [t [Ha <-]] D.
  assert (He : raw t = None -> alloc_shape t = []) by (destruct HI as [_ [_ [_ He]]]; now apply (He i)).
  cbn [lstep]. unfold lf. rewrite (rd_ok _ _ _ Hf), (lookup_ok _ _ _ Ha). cbn [bind l_kind].
  destruct (var_initialize_ok zero junk _ _ f (LInv_wf _ _ _ HI Ha) He D) as [h1 [t1 [p [b1 [E [L [Hb [Hl Hs]]]]]]]].
  rewrite E. cbn [bind fst snd]. eexists. split; [reflexivity|].
  destruct (write_back W i t h1 t1 p b1 (map f (seq 0 (n_elems (get_shape t)))) (KVar (Some f)) HI Ha L Hb) as [_ [H2 H3]].
  { rewrite map_length, seq_length. auto. }
  split; [rewrite Hs in H2; exact H2|]. split; [exact H3|]. split; [cbn [lnotify lset l_fs]; apply length_set_nth|]. split.
  - intros j kj [bj Hj]. destruct (Nat.eq_dec j i) as [->|Hnj].
    + rewrite Hf in Hj. injection Hj as <- _. exists true. cbn [lnotify]. apply fs_lset. now apply nth_error_lt in Hf.
    + exists bj. cbn [lnotify lset l_fs]. rewrite nth_error_set_nth_neq by lia; auto.
  - intros j s0 Hj [tj [Haj Hsj]]. exists tj. split; auto. unfold alive in *. cbn [lnotify lset l_w put w_ts]. rewrite nth_error_set_nth_neq by lia; auto.
Qed.

Lemma initialize_all_ok W vars sh ini : Good W -> NoDup vars ->
  (forall v, In v vars -> has_kind W v (KVar (Some (ini v))) /\ shape_of W v (sh v) /\ defined (sh v)) ->
  exists W', initialize_all zero junk add sub eqb W vars = Ok W' /\ Good W' /\
    (forall v, In v vars -> observe W' v = Ok (Some (sh v, map (ini v) (seq 0 (n_elems (sh v)))))) /\
    (forall j, ~ In j vars -> j < length (l_fs W) -> observe W' j = observe W j) /\ length (l_fs W') = length (l_fs W) /\
    (forall j k, has_kind W j k -> has_kind W' j k) /\
    (forall j s, ~ In j vars -> shape_of W j s -> shape_of W' j s).
Proof.
  intros HG HN HV. unfold initialize_all.
  match goal with |- exists _, for_ ?n ?body _ = _ /\ _ =>
    destruct (for_inv (fun j W' => Good W' /\ length (l_fs W') = length (l_fs W) /\ (forall x k, has_kind W x k -> has_kind W' x k) /\
        (forall x s, (forall i, i < j -> nth_error vars i <> Some x) -> shape_of W x s -> shape_of W' x s) /\
        (forall x, (forall i, i < j -> nth_error vars i <> Some x) -> x < length (l_fs W) -> observe W' x = observe W x) /\
        (forall i v, i < j -> nth_error vars i = Some v -> observe W' v = Ok (Some (sh v, map (ini v) (seq 0 (n_elems (sh v))))))) body n W) as [W' [E H]] end.
  - do 5 (split; auto). intros; lia.
  - intros j W1 Hj [G1 [N1 [K1 [S1 [O1 R1]]]]]. destruct (rd_lt vars j Hj) as [v [Hn En]]. rewrite En. cbn [bind].
    assert (Fresh : forall i, i < j -> nth_error vars i <> Some v).
    { intros i Hi C. pose proof (proj1 (NoDup_nth_error vars) HN i j) as X. rewrite C, Hn in X. specialize (X ltac:(lia) eq_refl). lia. }
    destruct (HV v (nth_error_In _ _ Hn)) as [Hk [Hs Hd]].
    destruct (init_step W1 v (sh v) (ini v) G1 (K1 _ _ Hk) (S1 v (sh v) Fresh Hs) Hd) as [W2 [E2 [Ob [Oth [Ln [Kd Sh]]]]]].
    exists W2. split; [exact E2|]. split; [eapply lstep_post; eauto|]. split; [lia|]. split; [auto|]. split; [|split].
    + intros x s Hx HS. apply Sh; [intros ->; apply (Hx j); auto|]. apply S1; auto.
    + intros x Hx Hlt. assert (x <> v) by (intros ->; apply (Hx j); auto). rewrite (Oth x) by (auto; lia). apply O1; auto.
    + intros i u Hi Hu. destruct (Nat.eq_dec i j) as [->|Hij].
      * rewrite Hn in Hu. injection Hu as <-. exact Ob.
      * assert (Hne : u <> v) by (intros ->; apply (Fresh i); auto; lia).
        assert (u < length (l_fs W)). { destruct (HV u (nth_error_In _ _ Hu)) as [[b Hb] _]. now apply nth_error_lt in Hb. }
        rewrite (Oth u) by (auto; lia). apply (R1 i); auto. lia.
  - exists W'. destruct H as [G' [N' [K' [S' [O' R']]]]]. split; [exact E|]. split; auto. split; [|split; [|split; [auto|split; [auto|]]]].
    + intros v Hv. apply In_nth_error in Hv as [i Hi]. apply (R' i); auto. now apply nth_error_lt in Hi.
    + intros j Hj Hlt. apply O'; auto. intros i _ C. apply Hj. eapply nth_error_In; eauto.
    + intros j s Hj. apply S'. intros i _ C. apply Hj. eapply nth_error_In; eauto.
Qed.
End P.
