(** Proofs about node reuse. *)
From Coq Require Import String Ascii DecimalString DecimalNat DecimalFacts Lia.
From Verif Require Import Common ShapeModel ShapeProofs TransformModel MatmulModel ElemSpec ElemModel ElemProofs GradModel CseModel CseSpec.
Local Open Scope list_scope.

Lemma all_chars_impl ok ok' s : (forall c, ok c = true -> ok' c = true) -> all_chars ok s = true -> all_chars ok' s = true.
Proof. intros H. induction s as [|c s IH]; cbn; [auto|]. intros E. apply andb_prop in E. destruct E. now rewrite H, IH. Qed.
Lemma number_clean s : prints_number s -> clean s.
Proof.
  apply all_chars_impl. intros c H. destruct (Ascii.eqb_spec c "_"%char) as [->|]; [cbv in H; discriminate|reflexivity].
Qed.

Lemma uint_clean d : prints_number (NilEmpty.string_of_uint d).
Proof. unfold prints_number in *. induction d; [reflexivity|..]; cbn [NilEmpty.string_of_uint all_chars]; now rewrite IHd. Qed.
Lemma dec_number n : prints_number (dec n).
Proof. unfold dec, NilZero.string_of_uint. destruct (Nat.to_uint n); [reflexivity|..]; apply (uint_clean (_ _)). Qed.
Lemma dec_clean n : clean (dec n). Proof. apply number_clean, dec_number. Qed.
Lemma dec_inj n m : dec n = dec m -> n = m.
Proof.
  unfold dec. intros H. assert (G : forall k, NilZero.uint_of_string (NilZero.string_of_uint (Nat.to_uint k)) = Some (Nat.to_uint k)).
  { intros k. apply NilZero.usu. intros E. pose proof (Unsigned.of_to k) as G. rewrite E in G. cbn in G. subst k. discriminate E. }
  pose proof (G n) as Gn. rewrite H, G in Gn. injection Gn as E. apply DecimalNat.Unsigned.to_uint_inj. auto.
Qed.

Definition starts_us (s : string) : Prop := s = EmptyString \/ exists r, s = String "_"%char r.
Lemma app_us a b x y : clean a -> clean b -> starts_us x -> starts_us y -> (a ++ x = b ++ y)%string -> a = b /\ x = y.
Proof.
  revert b. induction a as [|c a IH]; intros [|c' b] Ha Hb Hx Hy E; cbn in E; auto.
  - destruct Hx as [->|[r ->]]; [discriminate|]. injection E as <- _. cbv in Hb. discriminate.
  - destruct Hy as [->|[r ->]]; [discriminate|]. injection E as -> _. cbv in Ha. discriminate.
  - injection E as <- E. cbn in Ha, Hb. apply andb_prop in Ha, Hb. destruct (IH b) as [-> ->]; tauto.
Qed.
Lemma app_nil_s (s : string) : (s ++ "")%string = s.
Proof. induction s as [|c s IHs]; cbn; congruence. Qed.
Definition rest_of (l : list string) : string := match l with [] => EmptyString | _ => ("_" ++ String.concat "_" l)%string end.
Lemma concat_cons a l : String.concat "_" (a :: l) = (a ++ rest_of l)%string.
Proof. destruct l; cbn; [now rewrite app_nil_s|reflexivity]. Qed.
Lemma rest_us l : starts_us (rest_of l).
Proof. destruct l; [now left|right; cbn [rest_of String.append]; eauto]. Qed.
Lemma concat_inj l l' : l <> [] -> l' <> [] -> Forall clean l -> Forall clean l' -> String.concat "_" l = String.concat "_" l' -> l = l'.
Proof.
  revert l'. induction l as [|a l IH]; intros [|b l'] Hl Hl' F F' E; try contradiction. inversion F; subst. inversion F'; subst.
  rewrite !concat_cons in E. destruct (app_us a b (rest_of l) (rest_of l')) as [-> Exy]; auto using rest_us.
  f_equal. destruct l as [|a' l], l' as [|b' l']; [reflexivity|discriminate|discriminate|].
  apply IH; auto; try discriminate. unfold rest_of in Exy. cbn [String.append] in Exy. injection Exy as Exy. exact Exy.
Qed.

(* ---- labels determine what is computed ---- *)
Section Labels.
Context {T : Type} (N : num T) (fresh : nat -> T) (strassen_on : bool) (of_nat : nat -> T) (show : T -> string).
Context (cmp_of : string -> T -> T -> bool) (Hshow : exact_printing show).
Notation tokens := (tokens N show).
Notation label := (label N show).
Notation sem := (sem N fresh strassen_on of_nat).

Lemma show_clean x : clean (show x). Proof. apply number_clean, Hshow. Qed.
Lemma tokens_nonnil op : well_named cmp_of op -> tokens op <> [].
Proof. destruct op as [| |u|? ? ?|? ? ?|? ?|?|? ? ?|? ?|?| |? ?|?|?|?|?|? ?| |?|sz]; try (destruct sz as [sz|]); try destruct u; cbn [tokens well_named]; intros H; try destruct (clip_order N lo hi); try destruct (order_axes ax); try contradiction; discriminate. Qed.
Lemma tokens_clean op : well_named cmp_of op -> Forall clean (tokens op).
Proof.
  assert (L : forall dims, Forall clean (map dec dims)) by (intros dims; induction dims; cbn [map]; auto using dec_clean).
  destruct op as [| |u|? ? ?|? ? ?|? ?|o|o l ?|? ?|?| |? ?|ax|ax|ax|?|? ?| |?|sz]; try (destruct sz as [sz|]); try destruct u; try destruct o; try destruct l; try (destruct ax as [?|]); cbn [tokens well_named opt_axis]; intros H;
   try destruct (clip_order N lo hi); try destruct (order_axes _); try contradiction;
   repeat constructor; auto using dec_clean, show_clean; try apply H; reflexivity.
Qed.
Lemma label_tokens op op' : well_named cmp_of op -> well_named cmp_of op' -> label op = label op' -> tokens op = tokens op'.
Proof. intros H H'. apply concat_inj; auto using tokens_nonnil, tokens_clean. Qed.

Lemma for_ext {S} n (f f' : nat -> S -> res S) s : (forall i s, f i s = f' i s) -> for_ n f s = for_ n f' s.
Proof.
  intros H. unfold for_. generalize 0 as i. revert s. induction n as [|n IH]; intros s i; cbn [forloop]; [reflexivity|].
  rewrite H. destruct (f' i s); cbn [bind]; auto.
Qed.
Lemma pass_ext shaper (F F' : @forward T) ts : (forall o i s d, F o i s d = F' o i s d) -> forward_pass fresh shaper F ts None = forward_pass fresh shaper F' ts None.
Proof. intros H. unfold forward_pass. destruct (shaper (map fst ts)); cbn [bind]; auto. now rewrite H. Qed.
Lemma transform_ext f f' : (forall x, f x = f' x) -> forall o i s d, transform_fwd f o i s d = transform_fwd (T := T) f' o i s d.
Proof.
  intros H o i s d. unfold transform_fwd. destruct (rd s 0); cbn [bind]; auto. apply for_ext. intros j e. destruct (rd a j); cbn [bind]; auto. now rewrite H.
Qed.

Definition is_clip (op : @cop T) : bool := match op with KClipNorm _ => true | _ => false end.
Definition is_norm (op : @cop T) : bool := match op with KNorm => true | _ => false end.
Definition like (op op' : @cop T) : Prop :=
  (forall ts, sem op ts = sem op' ts) /\ kind_of op = kind_of op' /\ arity op = arity op' /\ is_clip op = is_clip op' /\ is_norm op = is_norm op'.
Lemma like_refl op : like op op. Proof. repeat split. Qed.

Lemma map_dec_inj l l' : map dec l = map dec l' -> l = l'.
Proof. revert l'. induction l as [|a l IH]; intros [|b l'] E; cbn in E; try discriminate; [reflexivity|]. injection E as E1 E2. f_equal; auto using dec_inj. Qed.
Lemma show_not s x : all_chars number_char s = false -> show x = s -> False.
Proof. intros H E. pose proof (proj1 Hshow x) as G. unfold prints_number in G. rewrite E in G. congruence. Qed.

Ltac absurd_show := exfalso; match goal with
  | H : show _ = ?s |- _ => apply (show_not s _) in H; [exact H|reflexivity]
  | H : ?s = show _ |- _ => symmetry in H; apply (show_not s _) in H; [exact H|reflexivity] end.

Lemma tokens_like op op' : well_named cmp_of op -> well_named cmp_of op' -> tokens op = tokens op' -> like op op'.
Proof.
  intros W W' E.
  destruct op as [| |u|? ? ?|? ? ?|? ?|o|o l ?|? ?|ax| |? ?|ax|ax|ax|?|? ?| |?|sz]; try (destruct sz as [sz|]); try destruct u; try destruct o; try destruct l; try (destruct ax as [?|]); try (contradiction W);
  destruct op' as [| |u|? ? ?|? ? ?|? ?|o|o l ?|? ?|ax'| |? ?|ax'|ax'|ax'|?|? ?| |?|sz']; try (destruct sz' as [sz'|]); try destruct u; try destruct o; try destruct l; try (destruct ax' as [?|]); try (contradiction W');
  try (apply like_refl); cbn [tokens opt_axis bop_name] in E;
  try (destruct (clip_order N lo hi) eqn:C1); try (destruct (clip_order N lo0 hi0) eqn:C2);
  try (destruct (order_axes _) eqn:O1 in E); try (destruct (order_axes _) eqn:O2 in E);
  try discriminate E; try (injection E; intros; absurd_show);
  try (injection E; intros; repeat match goal with
     | H : show _ = show _ |- _ => apply (proj2 Hshow) in H
     | H : dec _ = dec _ |- _ => apply dec_inj in H
     | H : map dec _ = map dec _ |- _ => apply map_dec_inj in H end; subst; clear E; try apply like_refl).
  all: cbn [well_named] in W, W'.
  all: try (destruct W as (? & -> & W), W' as (? & -> & W')); try (destruct W as (? & ->), W' as (? & ->)); try apply like_refl.
  all: repeat split; cbn [is_clip is_norm]; intros ts; try (cbn [sem]; now rewrite O1, O2).
  all: cbn [sem]; apply pass_ext, transform_ext; intros x; cbn [fwd_lambda]; rewrite ?C1, ?C2; auto.
  all: f_equal; auto.
Qed.
Lemma label_like op op' : well_named cmp_of op -> well_named cmp_of op' -> label op = label op' -> like op op'.
Proof. intros W W' E. apply tokens_like; auto using label_tokens. Qed.
End Labels.
