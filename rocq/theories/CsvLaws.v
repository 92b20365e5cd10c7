(** C56: the CSV file of the recorded graph. *)
From Coq Require Import String Ascii DecimalString.
From Coq Require Import DecimalNat Permutation.
From Verif Require Import Common RecordModel RecordLaws CsvModel CsvSpec.
Local Open Scope string_scope.

Lemma app_assoc_s (a b c : string) : (a ++ b) ++ c = a ++ b ++ c.
Proof. induction a; simpl; congruence. Qed.
Lemma app_nil_s (a : string) : a ++ "" = a.
Proof. induction a; simpl; congruence. Qed.
Lemma chars_app a b : list_ascii_of_string (a ++ b) = (list_ascii_of_string a ++ list_ascii_of_string b)%list.
Proof. induction a; simpl; congruence. Qed.

Notation free c s := (~ In c (list_ascii_of_string s)).
Lemma free_app c a b : free c a -> free c b -> free c (a ++ b).
Proof. rewrite chars_app, in_app_iff. tauto. Qed.

Lemma split_cons c a b : free c a -> split c (a ++ String c b) = a :: split c b.
Proof.
  induction a as [|x a IH]; simpl; intros H.
  - now rewrite Ascii.eqb_refl.
  - destruct (Ascii.eqb_spec x c) as [->|N]; [tauto|]. rewrite IH by tauto. reflexivity.
Qed.
Lemma split_one c a : free c a -> split c a = [a].
Proof.
  induction a as [|x a IH]; simpl; intros H; auto.
  destruct (Ascii.eqb_spec x c) as [->|N]; [tauto|]. rewrite IH by tauto. reflexivity.
Qed.
Lemma cut_at c a b : free c a -> cut c (a ++ String c b) = (a, Some b).
Proof.
  induction a as [|x a IH]; simpl; intros H.
  - now rewrite Ascii.eqb_refl.
  - destruct (Ascii.eqb_spec x c) as [->|N]; [tauto|]. rewrite IH by tauto. reflexivity.
Qed.

Lemma split_nonempty c s : split c s <> [].
Proof. destruct s as [|x s]; simpl; [discriminate|]. destruct (Ascii.eqb x c); [discriminate|]. destruct (split c s); discriminate. Qed.

(** decimal numerals *)
Definition digit (x : ascii) : bool := (48 <=? nat_of_ascii x)%nat && (nat_of_ascii x <=? 57)%nat.
Lemma dec_digits n : forall x, In x (list_ascii_of_string (dec n)) -> digit x = true.
Proof.
  assert (G : forall d x, In x (list_ascii_of_string (NilEmpty.string_of_uint d)) -> digit x = true).
  { induction d; simpl; intros x H; [easy|..]; (destruct H as [<-|H]; [reflexivity|auto]). }
  intros x. unfold dec, NilZero.string_of_uint. destruct (Nat.to_uint n) eqn:E; try apply (G (_ _)).
  simpl. intros [<-|[]]. reflexivity.
Qed.
Lemma dec_free n c : digit c = false -> free c (dec n).
Proof. intros H Hin. apply dec_digits in Hin. congruence. Qed.
Lemma parse_dec n : parse_nat (dec n) = Some n.
Proof.
  unfold parse_nat, dec. rewrite NilZero.usu.
  - simpl. now rewrite Unsigned.of_to.
  - destruct n; [discriminate|]. intros E. apply (f_equal Nat.of_uint) in E. rewrite Unsigned.of_to in E. discriminate.
Qed.

Lemma shape_free c s : digit c = false -> c <> " "%char -> free c "undefined " -> free c (print_shape s).
Proof.
  intros H1 H2 H3. unfold print_shape. destruct s as [|d s]; auto.
  generalize (d :: s). intros l. induction l as [|x l IH]; [simpl; tauto|].
  cbn [fold_right]. apply free_app; [now apply dec_free|]. apply free_app; auto. simpl. intros [E|[]]. congruence.
Qed.
Lemma suffix_plain display a n : plain (shape_suffix display a n).
Proof.
  unfold shape_suffix. destruct display; [|split; simpl; tauto].
  split; (apply free_app; [simpl; intros [E|[]]; discriminate|]; apply free_app; [|simpl; intros [E|[]]; discriminate]);
  (apply shape_free; [reflexivity|discriminate|]; simpl; intros E; repeat (destruct E as [E|E]; [discriminate|]); exact E).
Qed.

(** one line *)
Definition line_of (o s : string) (i : nat) : string := o ++ "," ++ s ++ "," ++ dec i.
Definition text_of (l : list (string * string * nat)) : string :=
  fold_right (fun e r => line_of (fst (fst e)) (snd (fst e)) (snd e) ++ newline ++ r) "" l.

Lemma cells_line o s i : plain o -> plain s -> cells (line_of o s i) = Some (o, s, i).
Proof.
  intros [Ho _] [Hs _]. unfold cells, line_of. simpl. rewrite split_cons by auto. rewrite split_cons by auto.
  rewrite split_one by (now apply dec_free). now rewrite parse_dec.
Qed.
Lemma line_free o s i : plain o -> plain s -> free nl (line_of o s i).
Proof.
  intros [_ Ho] [_ Hs]. unfold line_of. repeat apply free_app; auto; try (simpl; intros [E|[]]; discriminate).
  now apply dec_free.
Qed.

Lemma read_text l : (forall o s i, In (o, s, i) l -> plain o /\ plain s) -> read_names (text_of l) = Some l.
Proof.
  intros H. unfold read_names.
  assert (G : lines (text_of l) = map (fun e => line_of (fst (fst e)) (snd (fst e)) (snd e)) l).
  { unfold lines. induction l as [|[[o s] i] l IH]; auto. cbn [text_of fold_right map fst snd]. fold (text_of l).
    destruct (H o s i (or_introl eq_refl)) as [Po Ps].
    change (newline ++ text_of l) with (String nl (text_of l)). rewrite split_cons by (now apply line_free).
    cbn [removelast]. destruct (split nl (text_of l)) eqn:E; [now apply split_nonempty in E|].
    f_equal. apply IH. intros o' s' i' Hin. apply (H o' s' i'). simpl; auto. }
  rewrite G, map_map. clear G. induction l as [|[[o s] i] l IH]; auto. cbn [map fst snd all_some].
  destruct (H o s i (or_introl eq_refl)) as [Po Ps]. rewrite cells_line by auto.
  rewrite IH; auto. intros o' s' i' Hin. apply (H o' s' i'). simpl; auto.
Qed.

(** the numbering *)
Lemma distinct_snoc l x : distinct (l ++ [x]) = if in_dec Nat.eq_dec x l then distinct l else (distinct l ++ [x])%list.
Proof.
  induction l as [|y l IH]; simpl; auto.
  rewrite IH. destruct (in_dec Nat.eq_dec x l) as [H|H].
  - destruct (Nat.eq_dec y x); auto.
  - destruct (Nat.eq_dec y x) as [->|N].
    + rewrite filter_app. simpl. rewrite Nat.eqb_refl. simpl. rewrite app_nil_r. auto.
    + rewrite filter_app. simpl. destruct (Nat.eqb_spec x y); [congruence|]. simpl. auto.
Qed.
Lemma distinct_in x l : In x (distinct l) <-> In x l.
Proof.
  induction l as [|y l IH]; simpl; [tauto|]. rewrite filter_In, IH. destruct (Nat.eqb_spec x y); simpl; [subst; tauto|].
  split; [tauto|]. intros [->|H]; auto.
Qed.
Lemma distinct_nodup l : NoDup (distinct l).
Proof.
  induction l as [|y l IH]; simpl; constructor.
  - rewrite filter_In. intros [_ H]. now rewrite Nat.eqb_refl in H.
  - now apply NoDup_filter.
Qed.
Lemma position_app x l r : In x l -> position x (l ++ r) = position x l.
Proof.
  induction l as [|y l IH]; simpl; [tauto|]. destruct (Nat.eqb_spec y x); auto. intros [H|H]; [congruence|]. now rewrite IH.
Qed.
Lemma position_new x l : ~ In x l -> position x (l ++ [x]) = length l.
Proof.
  induction l as [|y l IH]; simpl; intros H; [now rewrite Nat.eqb_refl|].
  destruct (Nat.eqb_spec y x); [tauto|]. rewrite IH; auto.
Qed.
Lemma position_nth x l : In x l -> nth_error l (position x l) = Some x.
Proof.
  induction l as [|y l IH]; simpl; [tauto|]. destruct (Nat.eqb_spec y x) as [->|N]; auto. intros [H|H]; [congruence|]. auto.
Qed.

Definition numbered (c : list (nat * nat)) (m : nat) (M : list nat) : Prop :=
  m = length M /\ forall x, nfind c x = if in_dec Nat.eq_dec x M then Some (position x M) else None.

Lemma numbered_add c m M x : numbered c m M -> nfind c x = None -> numbered ((x, m) :: c) (S m) (M ++ [x]) /\ ~ In x M.
Proof.
  intros [H1 H2] Hx. assert (N : ~ In x M). { rewrite H2 in Hx. destruct (in_dec Nat.eq_dec x M); [discriminate|auto]. }
  split; auto. split; [rewrite app_length; simpl; lia|]. intros y. simpl. destruct (Nat.eqb_spec x y) as [->|Ne].
  - destruct (in_dec Nat.eq_dec y (M ++ [y])) as [_|Q]; [|exfalso; apply Q, in_or_app; simpl; auto]. rewrite position_new by auto. congruence.
  - rewrite H2. destruct (in_dec Nat.eq_dec y M) as [I|I], (in_dec Nat.eq_dec y (M ++ [x])) as [J|J]; auto.
    + now rewrite position_app.
    + exfalso. apply J, in_or_app; auto.
    + exfalso. apply in_app_or in J as [J|[J|[]]]; congruence.
Qed.

Lemma mentioned_snoc l o s i :
  mentioned (l ++ [(o, s, i)]) = distinct ((flat_map (fun e : nat * nat * nat => [fst (fst e); snd (fst e)]) l ++ [o]) ++ [s]).
Proof. unfold mentioned. rewrite flat_map_app. simpl. now rewrite <- app_assoc. Qed.

Lemma number_ok c m l o s i : numbered c m (mentioned l) -> o <> s ->
  exists c' m', number c m o s = (c', m', position o (mentioned (l ++ [(o, s, i)])), position s (mentioned (l ++ [(o, s, i)]))) /\
    numbered c' m' (mentioned (l ++ [(o, s, i)])).
Proof.
  intros HN Hne. rewrite mentioned_snoc. set (f := flat_map _ l). assert (HM : mentioned l = distinct f) by reflexivity.
  rewrite HM in HN. clear HM. unfold number.
  assert (Hs : nfind c s = if in_dec Nat.eq_dec s (distinct f) then Some (position s (distinct f)) else None) by apply HN.
  assert (Ho : nfind c o = if in_dec Nat.eq_dec o (distinct f) then Some (position o (distinct f)) else None) by apply HN.
  rewrite distinct_snoc.
  destruct (in_dec Nat.eq_dec o (distinct f)) as [Io|Io]; rewrite Ho.
  - assert (Ef : distinct (f ++ [o]) = distinct f).
    { rewrite distinct_snoc. destruct (in_dec Nat.eq_dec o f) as [|Q]; auto. now rewrite distinct_in in Io. }
    rewrite Ef. destruct (in_dec Nat.eq_dec s (distinct f)) as [Is|Is]; rewrite Hs.
    + destruct (in_dec Nat.eq_dec s (f ++ [o])) as [_|Q]; [|exfalso; apply Q, in_or_app; left; now rewrite <- distinct_in].
      eexists; eexists; split; [reflexivity|exact HN].
    + destruct (in_dec Nat.eq_dec s (f ++ [o])) as [Q|_].
      { exfalso. apply in_app_or in Q as [Q|[Q|[]]]; [apply Is; now rewrite distinct_in|congruence]. }
      destruct (numbered_add _ _ _ s HN Hs) as [HN' Nin]. eexists; eexists; split; [|exact HN'].
      rewrite position_app by auto. rewrite position_new by auto. now rewrite (proj1 HN).
  - assert (Ef : distinct (f ++ [o]) = (distinct f ++ [o])%list).
    { rewrite distinct_snoc. destruct (in_dec Nat.eq_dec o f) as [Q|]; auto. exfalso; apply Io; now rewrite distinct_in. }
    rewrite Ef. destruct (numbered_add _ _ _ o HN Ho) as [HN' Nin].
    assert (Hs' : nfind ((o, m) :: c) s = nfind c s). { simpl. destruct (Nat.eqb_spec o s); congruence. }
    destruct (in_dec Nat.eq_dec s (distinct f)) as [Is|Is]; rewrite Hs.
    + destruct (in_dec Nat.eq_dec s (f ++ [o])) as [_|Q]; [|exfalso; apply Q, in_or_app; left; now rewrite <- distinct_in].
      eexists; eexists; split; [|exact HN']. rewrite position_new by auto. rewrite position_app by auto. now rewrite (proj1 HN).
    + destruct (in_dec Nat.eq_dec s (f ++ [o])) as [Q|_].
      { exfalso. apply in_app_or in Q as [Q|[Q|[]]]; [apply Is; now rewrite distinct_in|congruence]. }
      rewrite <- Hs' in Hs. destruct (numbered_add _ _ _ s HN' Hs) as [HN'' Nin']. eexists; eexists; split; [|exact HN''].
      rewrite position_app by (apply in_or_app; simpl; auto). rewrite position_new by auto. rewrite position_new by auto.
      rewrite app_length. simpl. rewrite (proj1 HN). now rewrite Nat.add_1_r.
Qed.

Lemma mentioned_app l r : exists t, mentioned (l ++ r) = (mentioned l ++ t)%list.
Proof.
  revert l. induction r as [|[[o s] i] r IH]; intros l; [exists []; now rewrite !app_nil_r|].
  destruct (IH (l ++ [(o, s, i)])%list) as [t E]. rewrite <- app_assoc in E. simpl in E. rewrite E, mentioned_snoc.
  rewrite !distinct_snoc. fold (mentioned l).
  destruct (in_dec _ _ _); destruct (in_dec _ _ _); rewrite <- ?app_assoc; eauto.
Qed.
Lemma mentioned_in l o s i : In (o, s, i) l -> In o (mentioned l) /\ In s (mentioned l).
Proof. intros H. unfold mentioned. rewrite !distinct_in, !in_flat_map. split; exists (o, s, i); simpl; auto. Qed.

(** the loops as one loop over the edges *)
Lemma fold_res_app {A B} (f : A -> B -> res A) l r x : fold_res f (l ++ r) x = (y <- fold_res f l x ;; fold_res f r y).
Proof. revert x; induction l as [|b l IH]; intros x; simpl; auto. destruct (f x b); simpl; auto. Qed.

Definition edge3 a verbose display consider st (e : nat * nat * nat) := csv_edge a verbose display consider (snd (fst e)) st (fst (fst e), snd e).
Definition asked (a : about) (it : adj) := filter (fun e : nat * nat * nat => is_node a (snd (fst e))) (edges it).

Lemma flatten a verbose display consider it st :
  fold_res (csv_subject a verbose display consider) it st = fold_res (edge3 a verbose display consider) (asked a it) st.
Proof.
  revert st; induction it as [|[s l] it IH]; intros st; auto. cbn [fold_res]. unfold asked, edges. cbn [flat_map fst snd].
  rewrite filter_app, fold_res_app. unfold csv_subject at 1. cbn [fst snd].
  assert (G : (if is_node a s then fold_res (csv_edge a verbose display consider s) l st else Ok st) =
    fold_res (edge3 a verbose display consider) (filter (fun e : nat * nat * nat => is_node a (snd (fst e))) (map (fun q : nat * nat => (fst q, s, snd q)) l)) st).
  { destruct (is_node a s) eqn:E.
    - revert st. induction l as [|[o i] l IHl]; intros st; auto. cbn [map filter fst snd]. rewrite E. cbn [fold_res]. unfold edge3 at 1. cbn [fst snd].
      destruct (csv_edge a verbose display consider s st (o, i)); cbn [bind]; auto.
    - clear IH. induction l as [|[o i] l IHl]; auto. cbn [map filter fst snd]. now rewrite E. }
  rewrite G. destruct (fold_res (edge3 a verbose display consider) _ st) as [y| | |]; cbn [bind]; auto.
Qed.

Definition considered (a : about) (consider : option nat) (e : nat * nat * nat) : bool :=
  match consider with Some g => (graph a (fst (fst e)) =? g)%nat | None => true end.

Lemma selected_asked a consider it : selected a consider it = filter (considered a consider) (asked a it).
Proof.
  unfold selected, asked. induction (edges it) as [|[[o s] i] l IH]; auto. cbn [filter fst snd].
  destruct (is_node a s) eqn:E; cbn [andb filter]; [|exact IH].
  unfold considered at 1. cbn [fst]. destruct (match consider with Some g => _ | None => _ end); rewrite IH; auto.
Qed.

Lemma skip_unconsidered a verbose display consider l st : (forall e, In e l -> is_conn a (fst (fst e)) = true) ->
  fold_res (edge3 a verbose display consider) l st = fold_res (edge3 a verbose display consider) (filter (considered a consider) l) st.
Proof.
  revert st; induction l as [|e l IH]; intros st H; auto. cbn [filter].
  assert (H' : forall e, In e l -> is_conn a (fst (fst e)) = true) by (intros e' He'; apply H; simpl; auto).
  destruct (considered a consider e) eqn:E.
  - cbn [fold_res]. destruct (edge3 a verbose display consider st e); cbn [bind]; auto.
  - cbn [fold_res]. unfold edge3 at 1, csv_edge. destruct st as [[out c] m]. rewrite H by (simpl; auto). cbn [negb].
    unfold considered in E. destruct consider as [g|]; [|discriminate]. rewrite E. cbn [negb bind]. auto.
Qed.

Definition numcell (a : about) display M (n : nat) : string := "[" ++ dec (position n M) ++ "]" ++ label a n ++ shape_suffix display a n.

Lemma write_numbers a display consider l r out c m :
  numbered c m (mentioned l) ->
  (forall e, In e r -> is_conn a (fst (fst e)) = true /\ considered a consider e = true /\ fst (fst e) <> snd (fst e)) ->
  exists c' m', fold_res (edge3 a false display consider) r (out, c, m) =
    Ok (out ++ text_of (map (fun e => (numcell a display (mentioned (l ++ r)) (fst (fst e)), numcell a display (mentioned (l ++ r)) (snd (fst e)), snd e)) r), c', m').
Proof.
  revert l out c m. induction r as [|[[o s] i] r IH]; intros l out c m HN H.
  - simpl. rewrite app_nil_s. eauto.
  - destruct (H (o, s, i) (or_introl eq_refl)) as (H1 & H2 & H3). cbn [fst snd] in *.
    destruct (number_ok c m l o s i HN H3) as (c1 & m1 & E1 & HN1).
    cbn [fold_res]. unfold edge3 at 1, csv_edge. cbn [fst snd]. rewrite H1. cbn [negb].
    assert (Hc : match consider with Some g => negb (graph a o =? g)%nat | None => false end = false).
    { unfold considered in H2. cbn [fst] in H2. destruct consider; auto. now rewrite H2. }
    rewrite Hc, E1. cbn [bind].
    match goal with |- context [fold_res _ r (?x, c1, m1)] =>
      destruct (IH (l ++ [(o, s, i)])%list x c1 m1 HN1 (fun e He => H e (or_intror He))) as (c2 & m2 & ->) end.
    exists c2, m2. do 3 f_equal. rewrite <- app_assoc. cbn [app map fst snd].
    destruct (mentioned_app (l ++ [(o, s, i)]) r) as [t Et]. rewrite <- app_assoc in Et. cbn [app] in Et.
    destruct (mentioned_in (l ++ [(o, s, i)])%list o s i) as [Io Is]; [apply in_or_app; simpl; auto|].
    assert (Po : position o (mentioned (l ++ (o, s, i) :: r)) = position o (mentioned (l ++ [(o, s, i)]))) by (rewrite Et; now apply position_app).
    assert (Ps : position s (mentioned (l ++ (o, s, i) :: r)) = position s (mentioned (l ++ [(o, s, i)]))) by (rewrite Et; now apply position_app).
    rewrite <- Po, <- Ps. clear. generalize (mentioned (l ++ (o, s, i) :: r)). intros M.
    unfold text_of at 2. cbn [fold_right fst snd].
    match goal with |- context [newline ++ ?t] => change t with (text_of (map (fun e : nat * nat * nat => (numcell a display M (fst (fst e)), numcell a display M (snd (fst e)), snd e)) r)) end.
    generalize (text_of (map (fun e : nat * nat * nat => (numcell a display M (fst (fst e)), numcell a display M (snd (fst e)), snd e)) r)). intros R.
    unfold numcell, line_of. rewrite !app_assoc_s. cbn [append]. rewrite ?app_assoc_s. cbn [append]. rewrite ?app_assoc_s. reflexivity.
Qed.

Lemma parse_numcell a display M n : parse_cell (numcell a display M n) = Some (position n M, label a n ++ shape_suffix display a n).
Proof.
  unfold numcell. cbn [append parse_cell]. change ("]" ++ ?x) with (String "]" x).
  rewrite cut_at by (now apply dec_free). now rewrite parse_dec.
Qed.
Lemma numcell_plain a display M n : plain (label a n) -> plain (numcell a display M n).
Proof.
  intros [P1 P2]. destruct (suffix_plain display a n) as [S1 S2]. unfold numcell.
  split; (apply free_app; [simpl; intros [E|[]]; discriminate|]; apply free_app; [now apply dec_free|];
          apply free_app; [simpl; intros [E|[]]; discriminate|]; apply free_app; auto).
Qed.

(** The file lists exactly the selected edges, one line each: a reader of the CSV text gets for
    every edge the two node numbers with label and shape, and the argument index. The number of a
    node is its position in the order of first mention, so it is the same in all lines, different
    nodes have different numbers, and the numbers are those below the number of nodes. *)
Lemma C56_file_lists_graph_lemma : forall (a : about) (display : bool) (consider : option nat) (it : adj),
  (forall o s i, In (o, s, i) (edges it) -> is_node a s = true -> is_conn a o = true) ->
  (forall o s i, In (o, s, i) (selected a consider it) -> o <> s /\ plain (label a o) /\ plain (label a s)) ->
  let num n := position n (mentioned (selected a consider it)) in
  (exists text, to_csv a false display consider it = Ok text /\
    read_numbers text = Some (map (fun e => let '(o, s, i) := e in
      ((num o, label a o ++ shape_suffix display a o), (num s, label a s ++ shape_suffix display a s), i)) (selected a consider it))) /\
  forall o s i, In (o, s, i) (selected a consider it) ->
    num o < length (mentioned (selected a consider it)) /\ num s < length (mentioned (selected a consider it)) /\
    forall o' s' i', In (o', s', i') (selected a consider it) ->
      (num o = num o' <-> o = o') /\ (num o = num s' <-> o = s') /\ (num s = num s' <-> s = s').
Proof.
  intros a display consider it Hc Hp num. set (L := selected a consider it) in *.
  assert (HL : forall e, In e L -> is_conn a (fst (fst e)) = true /\ considered a consider e = true /\ fst (fst e) <> snd (fst e)).
  { intros [[o s] i] He. pose proof (Hp o s i He) as (Hne & _). unfold L in He. rewrite selected_asked in He. apply filter_In in He as [He Hco].
    apply filter_In in He as [He Hn]. cbn [fst snd] in *. split; eauto. }
  split.
  - destruct (write_numbers a display consider [] L "" [] 0) as (c' & m' & E).
    { split; auto. } { exact HL. }
    exists (text_of (map (fun e => (numcell a display (mentioned L) (fst (fst e)), numcell a display (mentioned L) (snd (fst e)), snd e)) L)). split.
    + unfold to_csv. rewrite flatten, skip_unconsidered, <- selected_asked.
      * fold L. rewrite E. reflexivity.
      * intros [[o s] i] He. apply filter_In in He as [He Hn]. cbn [fst snd] in *. eauto.
    + unfold read_numbers. rewrite read_text.
      * rewrite map_map. clear E. subst num. cbv beta. generalize (mentioned L) as M. intros M. clear. induction L as [|[[o s] i] l IH]; auto.
        cbn [map fst snd all_some] in *. rewrite !parse_numcell. rewrite IH. reflexivity.
      * intros oc sc i Hin. apply in_map_iff in Hin as ([[o s] j] & E' & Hin). injection E' as <- <- <-.
        destruct (Hp o s j Hin) as (_ & P1 & P2). split; now apply numcell_plain.
  - intros o s i Hin. destruct (mentioned_in L o s i Hin) as [Io Is].
    assert (Inj : forall x y, In x (mentioned L) -> In y (mentioned L) -> (num x = num y <-> x = y)).
    { intros x y Hx Hy. split; [|now intros ->]. unfold num. intros E. apply position_nth in Hx, Hy. rewrite E in Hx. congruence. }
    assert (Lt : forall x, In x (mentioned L) -> num x < length (mentioned L)).
    { intros x Hx. apply position_nth in Hx. apply nth_error_Some. unfold num. congruence. }
    split; auto. split; auto. intros o' s' i' Hin'. destruct (mentioned_in L o' s' i' Hin') as [Io' Is']. auto.
Qed.

(** With setVerbose(true) every line has the names and shapes of the two nodes and the index; *)
Lemma C56_verbose_lemma : forall (a : about) (display : bool) (consider : option nat) (it : adj),
  (forall o s i, In (o, s, i) (edges it) -> is_node a s = true -> is_conn a o = true) ->
  (forall o s i, In (o, s, i) (selected a consider it) ->
     plain (label a o) /\ plain (label a s) /\ plain (uid a o) /\ plain (uid a s)) ->
  exists text, to_csv a true display consider it = Ok text /\
    read_names text = Some (map (fun e => let '(o, s, i) := e in
      (get_name a o ++ shape_suffix display a o, get_name a s ++ shape_suffix display a s, i)) (selected a consider it)).
Proof.
  intros a display consider it Hc Hp. set (L := selected a consider it) in *.
  set (f := fun e : nat * nat * nat => (get_name a (fst (fst e)) ++ shape_suffix display a (fst (fst e)), get_name a (snd (fst e)) ++ shape_suffix display a (snd (fst e)), snd e)).
  assert (HL : forall e, In e L -> is_conn a (fst (fst e)) = true /\ considered a consider e = true).
  { intros [[o s] i] He. unfold L in He. rewrite selected_asked in He. apply filter_In in He as [He Hco].
    apply filter_In in He as [He Hn]. cbn [fst snd] in *. split; eauto. }
  assert (G : forall l out, (forall e, In e l -> is_conn a (fst (fst e)) = true /\ considered a consider e = true) ->
    fold_res (edge3 a true display consider) l (out, [], 0) = Ok (out ++ text_of (map f l), [], 0)).
  { induction l as [|[[o s] i] l IH]; intros out H; [simpl; now rewrite app_nil_s|].
    destruct (H (o, s, i) (or_introl eq_refl)) as (H1 & H2). cbn [fst snd] in *.
    cbn [fold_res]. unfold edge3 at 1, csv_edge. cbn [fst snd]. rewrite H1. cbn [negb].
    assert (Hcc : match consider with Some g => negb (graph a o =? g)%nat | None => false end = false).
    { unfold considered in H2. cbn [fst] in H2. destruct consider; auto. now rewrite H2. }
    rewrite Hcc. cbn [bind]. rewrite IH by (intros e He; apply H; simpl; auto). do 3 f_equal.
    cbn [map]. unfold text_of at 2. cbn [fold_right]. fold (text_of (map f l)). generalize (text_of (map f l)). intros R.
    unfold f, line_of. cbn [fst snd]. rewrite !app_assoc_s. cbn [append]. rewrite ?app_assoc_s. reflexivity. }
  exists (text_of (map f L)). split.
  - unfold to_csv. rewrite flatten, skip_unconsidered, <- selected_asked.
    + fold L. rewrite (G L "" HL). reflexivity.
    + intros [[o s] i] He. apply filter_In in He as [He Hn]. cbn [fst snd] in *. eauto.
  - rewrite read_text.
    + f_equal. apply map_ext. intros [[o s] i]. reflexivity.
    + assert (P : forall n, plain (label a n) -> plain (uid a n) -> plain (get_name a n ++ shape_suffix display a n)).
      { intros n [P1 P2] [Q1 Q2]. destruct (suffix_plain display a n) as [S1 S2]. unfold get_name.
        split; repeat apply free_app; auto; simpl; intros [E|[]]; discriminate. }
      intros oc sc j Hin. apply in_map_iff in Hin as ([[o s] i] & E & Hin). unfold f in E. injection E as <- <- <-.
      destruct (Hp o s i Hin) as (P1 & P2 & P3 & P4). cbn [fst snd]. split; apply P; auto.
Qed.

(** and names are different for nodes whose uids are different and contain no colon. *)
Lemma C56_names_distinct_lemma : forall (a : about) (m n : nat),
  ~ In ":"%char (list_ascii_of_string (uid a m)) -> ~ In ":"%char (list_ascii_of_string (uid a n)) ->
  uid a m <> uid a n -> get_name a m <> get_name a n.
Proof.
  intros a m n Fm Fn Hne E. apply Hne. unfold get_name in E. injection E as E.
  assert (G : forall l1 l2 u1 u2, free ":"%char u1 -> free ":"%char u2 -> l1 ++ ":" ++ u1 ++ ">" = l2 ++ ":" ++ u2 ++ ">" -> u1 = u2).
  { assert (T : forall u1 u2, u1 ++ ">" = u2 ++ ">" -> u1 = u2).
    { induction u1 as [|x u1 IH]; intros [|y u2]; simpl; intros H; auto; try congruence.
      - injection H as _ H. destruct u2; discriminate.
      - injection H as _ H. destruct u1; discriminate.
      - injection H as -> H. f_equal; auto. }
    induction l1 as [|x l1 IH]; intros [|y l2] u1 u2 F1 F2 H; simpl in H.
    - injection H as H. auto.
    - injection H as <- H. exfalso. assert (F : free ":"%char (u1 ++ ">")) by (apply free_app; auto; simpl; intros [E'|[]]; discriminate).
      apply F. rewrite H, chars_app. apply in_or_app. right. simpl. auto.
    - injection H as -> H. exfalso. assert (F : free ":"%char (u2 ++ ">")) by (apply free_app; auto; simpl; intros [E'|[]]; discriminate).
      apply F. rewrite <- H, chars_app. apply in_or_app. right. simpl. auto.
    - injection H as _ H. eauto. }
  eapply G; eauto.
Qed.

(** Writing is undefined exactly if some recorded observer of a node of the type is not a
    connector of the type. *)
Lemma C56_undefined_lemma : forall (a : about) (verbose display : bool) (consider : option nat) (it : adj),
  to_csv a verbose display consider it = UB <-> exists o s i, In (o, s, i) (edges it) /\ is_node a s = true /\ is_conn a o = false.
Proof.
  intros a verbose display consider it. unfold to_csv. rewrite flatten.
  assert (G : forall l st, fold_res (edge3 a verbose display consider) l st = UB \/ exists st', fold_res (edge3 a verbose display consider) l st = Ok st').
  { induction l as [|[[o s] i] l IH]; intros [[out c] m]; [right; eexists; reflexivity|]. cbn [fold_res]. unfold edge3 at 1 3, csv_edge. cbn [fst snd].
    destruct (is_conn a o); cbn [negb]; [|left; reflexivity].
    destruct (match consider with Some g => negb (graph a o =? g)%nat | None => false end); cbn [bind]; auto.
    destruct verbose; [|destruct (number c m o s) as [[[c1 m1] ob] sb]]; cbn [bind]; auto. }
  assert (U : forall l st, fold_res (edge3 a verbose display consider) l st = UB <-> exists e, In e l /\ is_conn a (fst (fst e)) = false).
  { induction l as [|[[o s] i] l IH]; intros [[out c] m]; [simpl; split; [discriminate|intros (e & [] & _)]|].
    cbn [fold_res]. unfold edge3 at 1, csv_edge. cbn [fst snd].
    destruct (is_conn a o) eqn:Ec; cbn [negb].
    - assert (R : (exists e, In e ((o, s, i) :: l) /\ is_conn a (fst (fst e)) = false) <-> exists e, In e l /\ is_conn a (fst (fst e)) = false).
      { split; intros (e & He & H); [|exists e; simpl; auto]. destruct He as [<-|He]; [simpl in H; congruence|eauto]. }
      rewrite R. destruct (match consider with Some g => negb (graph a o =? g)%nat | None => false end); cbn [bind]; auto.
      destruct verbose; [|destruct (number c m o s) as [[[c1 m1] ob] sb]]; cbn [bind]; auto.
    - cbn [bind]. split; auto. intros _. exists (o, s, i). simpl; auto. }
  transitivity (fold_res (edge3 a verbose display consider) (asked a it) ("", [], 0) = UB).
  - destruct (G (asked a it) ("", [], 0)) as [->|[st' ->]]; cbn [bind]; split; congruence.
  - rewrite U. split.
    + intros ([[o s] i] & He & H). apply filter_In in He as [He Hn]. cbn [fst snd] in *. exists o, s, i. auto.
    + intros (o & s & i & He & Hn & H). exists (o, s, i). split; auto. apply filter_In. auto.
Qed.

Lemma nodup_map_on {A B} (f : A -> B) l : (forall x y, In x l -> In y l -> f x = f y -> x = y) -> NoDup l -> NoDup (map f l).
Proof.
  intros H N. induction N as [|x l Hx N IH]; simpl; constructor.
  - intros Hin. apply in_map_iff in Hin as (y & E & Hy). apply Hx. rewrite (H x y); simpl; auto.
  - apply IH. intros y z Hy Hz. apply H; simpl; auto.
Qed.

(** Together with the recorder (C47): after any history of attaching, detaching and destroying
    subjects, in whatever order the recorder is iterated, the file has exactly one row for every
    (observer, subject, index) then attached whose observer is recordable and whose subject is a
    node of the type, and no other rows. *)
Lemma C56_current_graph_lemma : forall (recordable : nat -> bool) (ops : list sub_op) (a : about) (display : bool) (it : adj),
  let w := fold_left (sub_step recordable) ops (mkwatch [] []) in
  Permutation (edges it) (edges (rec w)) ->
  (forall o s i, In (s, o, i) (aud w) -> is_conn a o = true /\ o <> s) -> (forall n, plain (label a n)) ->
  exists text rows num, to_csv a false display None it = Ok text /\ read_numbers text = Some rows /\ NoDup rows /\
    (forall r, In r rows <-> exists o s i, In (s, o, i) (aud w) /\ recordable o = true /\ is_node a s = true /\
       r = ((num o, label a o ++ shape_suffix display a o), (num s, label a s ++ shape_suffix display a s), i)) /\
    (let in_file n := exists o s i, In (s, o, i) (aud w) /\ recordable o = true /\ is_node a s = true /\ (n = o \/ n = s) in
     forall m n, in_file m -> in_file n -> num m = num n -> m = n).
Proof.
  intros recordable ops a display it w HP Hc Hl.
  destruct (C47_mirrors_audience_lemma recordable ops) as [HN HM]. fold w in HN, HM.
  assert (HE : forall o s i, In (o, s, i) (edges it) <-> recordable o = true /\ In (s, o, i) (aud w)).
  { intros o s i. rewrite <- HM. split; apply Permutation_in; auto. now apply Permutation_sym. }
  assert (HS : forall o s i, In (o, s, i) (selected a None it) <-> recordable o = true /\ In (s, o, i) (aud w) /\ is_node a s = true).
  { intros o s i. unfold selected. rewrite filter_In, HE, andb_true_r. tauto. }
  destruct (C56_file_lists_graph_lemma a display None it) as [(text & E1 & E2) HI].
  - intros o s i H _. apply HE in H as [_ H]. now apply Hc in H.
  - intros o s i H. apply HS in H as (_ & H & _). apply Hc in H as [_ H]. auto.
  - set (num := fun n => position n (mentioned (selected a None it))) in *.
    exists text, (map (fun e => let '(o, s, i) := e in ((num o, label a o ++ shape_suffix display a o), (num s, label a s ++ shape_suffix display a s), i)) (selected a None it)), num.
    split; auto. split; auto. split; [|split].
    + apply nodup_map_on.
      * intros [[o s] i] [[o' s'] i'] H H' E. injection E as A1 _ A2 _ A3. subst i'. destruct (HI o s _ H) as (_ & _ & HJ).
        destruct (HJ o' s' _ H') as (J1 & _ & J2). apply J1 in A1. apply J2 in A2. congruence.
      * apply NoDup_filter. eapply Permutation_NoDup; [apply Permutation_sym; exact HP|auto].
    + intros r. split.
      * intros Hr. apply in_map_iff in Hr as ([[o s] i] & <- & H). apply HS in H as (H1 & H2 & H3). exists o, s, i. auto.
      * intros (o & s & i & H1 & H2 & H3 & ->). apply in_map_iff. exists (o, s, i). split; auto. apply HS; auto.
    + intros in_file m n Hm Hn E.
      assert (G : forall x, in_file x -> In x (mentioned (selected a None it))).
      { intros x (o & s & i & H1 & H2 & H3 & H4). destruct (mentioned_in (selected a None it) o s i) as [Io Is]; [apply HS; auto|].
        destruct H4 as [-> | ->]; auto. }
      apply G, position_nth in Hm. apply G, position_nth in Hn. unfold num in E. rewrite E in Hm. congruence.
Qed.

(** Finding: a label containing a comma (labels are chosen by the user) makes a line with four
    cells. *)
Lemma C56_comma_refuted_lemma : exists a it text,
  to_csv a false false None it = Ok text /\ text = "[0]w,b,[1]x,0" ++ newline /\ read_names text = None.
Proof.
  exists (mkabout (fun _ => true) (fun _ => true) (fun n => if (n =? 1)%nat then "w,b" else "x") (fun _ => "u") (fun _ => []) (fun _ => 0)), [(2, [(1, 0)])].
  eexists. split; [vm_compute; reflexivity|]. split; vm_compute; reflexivity.
Qed.

(** Finding: a node that observes itself gets two numbers. *)
Lemma C56_self_loop_refuted_lemma : exists a it text,
  (forall n, plain (label a n)) /\ to_csv a false false None it = Ok text /\ edges it = [(1, 1, 0); (1, 1, 1)] /\
  read_numbers text = Some [((0, "x"), (1, "x"), 0); ((1, "x"), (1, "x"), 1)].
Proof.
  exists (mkabout (fun _ => true) (fun _ => true) (fun _ => "x") (fun _ => "u") (fun _ => []) (fun _ => 0)), [(1, [(1, 0); (1, 1)])].
  eexists. split; [intros n; simpl; split; simpl; intros [E|[]]; discriminate|].
  split; [vm_compute; reflexivity|]. split; vm_compute; reflexivity.
Qed.

(** A graph with a shared node, a node of another type and two graphs. *)
Lemma C56_nonvacuous_lemma : exists a it text,
  (forall n, plain (label a n)) /\
  (forall o s i, In (o, s, i) (edges it) -> is_node a s = true -> is_conn a o = true) /\
  (forall o s i, In (o, s, i) (selected a (Some 7) it) -> o <> s) /\
  length (edges it) = 5 /\ selected a (Some 7) it = [(3, 1, 0); (3, 2, 1); (4, 3, 0)] /\
  to_csv a false true (Some 7) it = Ok text /\
  text = "[0]add(2 3 ),[1]x(undefined ),0" ++ newline ++ "[0]add(2 3 ),[2]x(undefined ),1" ++ newline ++ "[3]x(undefined ),[0]add(2 3 ),0" ++ newline.
Proof.
  exists (mkabout (fun n => negb (n =? 9)%nat) (fun _ => true) (fun n => if (n =? 3)%nat then "add" else "x") dec
            (fun n => if (n =? 3)%nat then [2; 3] else []) (fun n => if (n =? 5)%nat then 8 else 7)),
         [(1, [(3, 0)]); (9, [(3, 0)]); (2, [(3, 1); (5, 0)]); (3, [(4, 0)])].
  eexists. split.
  { intros n. simpl. destruct (n =? 3)%nat; split; simpl; intros E; repeat (destruct E as [E|E]; [discriminate|]); exact E. }
  split; [reflexivity|]. split.
  { intros o s i H. vm_compute in H. repeat (destruct H as [H|H]; [injection H as <- <- <-; discriminate|]). destruct H. }
  split; [vm_compute; reflexivity|]. split; [vm_compute; reflexivity|]. split; [vm_compute; reflexivity|]. vm_compute; reflexivity.
Qed.

(** and one of the composed theorem: a node with two arguments that are the same leaf. *)
Lemma C56_current_nonvacuous_lemma : exists (recordable : nat -> bool) ops (a : about),
  let w := fold_left (sub_step recordable) ops (mkwatch [] []) in
  aud w = [(2, 3, 0); (1, 3, 1); (1, 3, 0)] /\ edges (rec w) = [(3, 1, 1); (3, 1, 0); (3, 2, 0)] /\
  (forall o s i, In (s, o, i) (aud w) -> is_conn a o = true /\ o <> s) /\ (forall n, plain (label a n)).
Proof.
  exists (fun _ => true), [OAttach 1 3 0; OAttach 1 3 1; OAttach 1 4 0; OAttach 2 3 0; ODetach 1 4],
    (mkabout (fun _ => true) (fun _ => true) (fun _ => "x") dec (fun _ => []) (fun _ => 0)).
  cbv zeta. split; [vm_compute; reflexivity|]. split; [vm_compute; reflexivity|]. split.
  - intros o s i H. vm_compute in H. repeat (destruct H as [H|H]; [injection H as <- <- <-; split; [reflexivity|discriminate]|]). destruct H.
  - intros n; simpl; split; simpl; intros [E|[]]; discriminate.
Qed.
