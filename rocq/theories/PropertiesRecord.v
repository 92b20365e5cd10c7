(** Generated by tools/genprops.py from RecordLaws.v: property statements only. *)
From Verif Require Import Common CacheModel CacheSpec CacheProofs CacheLaws RecordModel.
From Verif Require Import RecordLaws.

(** registertype returns true exactly when the identifier is neither the default allocator's nor
    registered earlier. *)
Theorem C46_registered_once : forall l k cls id,
  nth_error l k = Some (cls, id) ->
  nth_error (snd (registrations registry_new l)) k =
  Some (negb ((id =? default_id) || existsb (fun p => snd p =? id) (earlier l k))).
Proof. exact C46_registered_once_lemma. Qed.
Print Assumptions C46_registered_once.

(** get returns an instance of the class registered first under the identifier (the default
    allocator for its own identifier), null when there is none; later registrations change
    nothing, and different identifiers have different instances. *)
Theorem C46_lookup : forall l id,
  match reg_get (fst (registrations registry_new l)) id with
  | Some a => (id = default_id /\ inst_class a = 0) \/
              (id <> default_id /\ exists k, first_of id l 0 = Some (k, inst_class a))
  | None => id <> default_id /\ first_of id l 0 = None
  end /\
  (forall l' a, reg_get (fst (registrations registry_new l)) id = Some a ->
     reg_get (fst (registrations registry_new (l ++ l'))) id = Some a) /\
  (forall id' a, reg_get (fst (registrations registry_new l)) id = Some a ->
     reg_get (fst (registrations registry_new l)) id' = Some a -> id = id').
Proof. exact C46_lookup_lemma. Qed.
Print Assumptions C46_lookup.

(** check_registry<A>(id): something is registered there and its class is A or derives from A. *)
Theorem C46_check_registry : forall isa l cls id,
  check_registry isa (fst (registrations registry_new l)) cls id = true <->
  (id = default_id /\ isa 0 cls = true) \/
  (id <> default_id /\ exists k c, first_of id l 0 = Some (k, c) /\ isa c cls = true).
Proof. exact C46_check_registry_lemma. Qed.
Print Assumptions C46_check_registry.

Example C46_nonvacuous :
  snd (registrations registry_new [(3, 5); (4, 0); (6, 5); (7, 9)]) = [true; false; false; true] /\
  reg_get (fst (registrations registry_new [(3, 5); (4, 0); (6, 5); (7, 9)])) 5 = Some (mkinst 1 3) /\
  reg_get (fst (registrations registry_new [(3, 5); (4, 0); (6, 5); (7, 9)])) 4 = None.
Proof. exact C46_nonvacuous_lemma. Qed.

(** After any history of captures, releases and node destructions the recorder lists exactly the
    standing edges, each once. *)
Theorem C47_edges : forall recordable h,
  NoDup (edges (fold_left (record recordable) h [])) /\
  forall o s i, In (o, s, i) (edges (fold_left (record recordable) h [])) <-> standing recordable h o s i.
Proof. exact C47_edges_lemma. Qed.
Print Assumptions C47_edges.

(** After any history of attach, detach and destruction of subjects the recorder lists exactly
    the (observer, subject, index) triples of the audiences whose observer is recordable. *)
Theorem C47_mirrors_audience : forall recordable ops,
  let w := fold_left (sub_step recordable) ops (mkwatch [] []) in
  NoDup (edges (rec w)) /\
  forall o s i, In (o, s, i) (edges (rec w)) <-> recordable o = true /\ In (s, o, i) (aud w).
Proof. exact C47_mirrors_audience_lemma. Qed.
Print Assumptions C47_mirrors_audience.

(** Finding: destroying a node does not remove the edges in which it is the observer; those
    disappear only through edge_release. *)
Theorem C47_observer_gone_refuted : exists recordable h o s i,
  In (NodeGone o) h /\ In (o, s, i) (edges (fold_left (record recordable) h [])).
Proof. exact C47_observer_gone_refuted_lemma. Qed.
Print Assumptions C47_observer_gone_refuted.

(** The remote recorder: a new subscriber receives one message per edge ever captured or
    released, saying ADD exactly if the last of those events was a capture. *)
Theorem C47_remote_edges : forall h, exists c,
  adds msg_key key_eqb cache_new (flat_map rpc_messages h) = Ok c /\
  exists ms it, reads (length ms + 1) c None = Ok (map Some ms ++ [None], it) /\
  NoDup (map msg_key ms) /\
  forall o s i b, In ((o, s, i), b) ms <->
    exists h1 h2, h = h1 ++ (if b then Capture o s i else Release o s i) :: h2 /\
      ~ In (Capture o s i) h2 /\ ~ In (Release o s i) h2.
Proof. exact C47_remote_edges_lemma. Qed.
Print Assumptions C47_remote_edges.

(** Finding: the remote recorder ignores that a node was destroyed and whether the observer is
    recordable: its edges stay announced as ADD. *)
Theorem C47_remote_ignores_destruction_refuted : exists h,
  ~ standing (fun _ => true) h 1 2 0 /\
  exists c it, adds msg_key key_eqb cache_new (flat_map rpc_messages h) = Ok c /\
  reads 2 c None = Ok ([Some ((1, 2, 0), true); None], it).
Proof. exact C47_remote_ignores_destruction_refuted_lemma. Qed.
Print Assumptions C47_remote_ignores_destruction_refuted.

Example C47_nonvacuous :
  edges (fold_left (record (fun o => negb (o =? 9))) [Capture 1 2 0; Capture 9 2 1; Capture 1 2 1; Release 1 2 0; Capture 3 4 0; NodeGone 4] [])
  = [(1, 2, 1)].
Proof. exact C47_nonvacuous_lemma. Qed.
