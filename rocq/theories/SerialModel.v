(** Model of saving and loading nodes: app/tenncor/src/memory/tensor_io.ipp, and the callers
    app/rocnnet/src/compounds/icompound.cpp (initialize, save) and
    app/rocnnet/src/models/dq_net.cpp (initialize, save), over the leaf nodes of LeafModel.v.
    A file is absent, holds bytes that do not parse, or holds a repository message, i.e. the
    map from keys to tensor messages; that parsing what was serialised gives the message
    back is trusted to protobuf. *)
From Coq Require Import String DecimalString.
From Verif Require Import Common ShapeModel FitModel TensorModel LeafModel.
Local Open Scope list_scope.

Section Serial.
Context {T : Type} (zero junk : T).

(** tenncor::repository: node_map *)
Definition repository := list (string * proto T).
Inductive fcontent := FAbsent | FGarbage | FRepo (r : repository).
Definition files := string -> fcontent.

(** Map::find *)
Fixpoint map_find (r : repository) (key : string) : option (proto T) :=
  match r with
  | [] => None
  | (k, p) :: r => if String.eqb k key then Some p else map_find r key
  end.
(** (map)[key] = p *)
Definition map_put (r : repository) (key : string) (p : proto T) : repository :=
  (key, p) :: filter (fun e => negb (String.eqb (fst e) key)) r.

(** std::to_string(i) *)
Definition to_string (i : nat) : string := NilEmpty.string_of_uint (Nat.to_uint i).
(** tensor_io.ipp:36, 77: label + ":" + std::to_string(i) *)
Definition node_label (label : string) (i : nat) : string := (label ++ ":" ++ to_string i)%string.

Definition write_file (fs : files) (fname : string) (c : fcontent) : files :=
  fun f => if String.eqb f fname then c else fs f.

(** tensor_io.ipp:34-43: the loop putting the nodes into the repository. serialize leaves
    the message empty for a tensor without data *)
Definition put_nodes (W : lworld) (nodes : list nat) (label : string) (repo : repository) : res repository :=
  for_ (length nodes) (fun i repo =>
    node <- rd nodes i ;;
    e <- leaf_eval W node ;;
    match e with
    | None => Ok repo
    | Some t =>
      o <- t_serialize (lheap W) t ;;
      Ok (map_put repo (node_label label i) (match o with Some p => p | None => mkP [] [] [] end))
    end) repo.

(** what becomes of the write at tensor_io.ipp:46-51: it succeeds; the file cannot be opened;
    or it was opened, hence truncated, and the write did not complete (an error, or a crash
    of the program at that point), the file being left with some content *)
Inductive outcome := WDone | WNotOpened | WCut (c : fcontent).

(** tensor_io.ipp:14-55 write_inorder *)
Definition write_inorder (W : lworld) (fs : files) (nodes : list nat) (label fname : string) (out : outcome)
  : res (files * bool) :=
  match (match fs fname with FAbsent => Some [] | FGarbage => None | FRepo r => Some r end) with
  | None => Ok (fs, false)
  | Some repo =>
    repo <- put_nodes W nodes label repo ;;
    match out with
    | WDone => Ok (write_file fs fname (FRepo repo), true)
    | WNotOpened => Ok (fs, false)
    | WCut c => Ok (write_file fs fname c, false)
    end
  end.

(** read_proto: ileaf.ipp:102-112; base_immutable.ipp:125-130 for operation results (kind
    KTensor here) *)
Definition read_proto (W : lworld) (node : nat) (pr : proto T) : res (lworld * bool) :=
  f <- lf W node ;;
  match l_kind f with
  | KTensor => Ok (W, false)
  | k =>
    t <- lookup (l_w W) node ;;
    r <- t_from_proto false zero junk (lheap W) t pr ;;
    let '(h, t', success) := r in
    if success then Ok (lnotify (lset W h node t' k true) node, true)
    else Ok (lset W h node t' k (l_init f), false)
  end.

(** tensor_io.ipp:73-93: the loop of read_inorder; second component: unfound *)
Definition read_nodes (repo : repository) (nodes : list nat) (label : string) (W : lworld) : res (lworld * list nat) :=
  for_ (length nodes) (fun i s =>
    let '(W, unfound) := s in
    node <- rd nodes i ;;
    match map_find repo (node_label label i) with
    | None => Ok (W, unfound ++ [node])
    | Some pr =>
      r <- read_proto W node pr ;;
      let '(W, success) := r in
      Ok (W, if success then unfound else unfound ++ [node])
    end) (W, []).

(** tensor_io.ipp:59-98 read_inorder: the new world, the nodes not found, the result *)
Definition read_inorder (W : lworld) (fs : files) (nodes : list nat) (label fname : string)
  : res (lworld * list nat * bool) :=
  match fs fname with
  | FRepo repo => r <- read_nodes repo nodes label W ;; Ok (r, true)
  | _ => Ok (W, nodes, false)
  end.

(** variable::initialize() as one step of the leaf model *)
Definition initialize_all (add sub : T -> T -> T) (eqb : T -> T -> bool) (W : lworld) (vars : list nat) : res lworld :=
  for_ (length vars) (fun i W => v <- rd vars i ;; lstep zero junk add sub eqb W (LInit v)) W.

(** icompound.cpp:30-46 initialize *)
Definition compound_initialize add sub eqb (W : lworld) (fs : files) (vars : list nat) (scope serialname readscope : string) : res lworld :=
  let readscope := if String.eqb readscope "" then scope else readscope in
  r <- read_inorder W fs vars readscope serialname ;;
  let '(W1, nv, ok) := r in
  if ok && (length nv =? 0) then Ok W1
  else initialize_all add sub eqb W1 vars.

(** icompound.cpp:48-54 save *)
Definition compound_save (W : lworld) (fs : files) (vars : list nat) (scope fname writescope : string) (out : outcome) : res (files * bool) :=
  let writescope := if String.eqb writescope "" then scope else writescope in
  write_inorder W fs vars writescope fname out.

(** dq_net.cpp:171-177 save; [brain_scope] is the scope of the network passed to the
    constructor *)
Definition dq_save (W : lworld) (fs : files) (source target : list nat) (brain_scope scope fname writescope : string) (w1 w2 : outcome) : res (files * bool) :=
  let writescope := if String.eqb writescope "" then scope else writescope in
  r1 <- compound_save W fs source brain_scope fname writescope w1 ;;
  r2 <- compound_save W (fst r1) target ("target_" ++ scope)%string fname ("target_" ++ writescope)%string w2 ;;
  Ok (fst r2, snd r1 && snd r2).

(** dq_net.cpp:164-169 initialize *)
Definition dq_initialize add sub eqb (W : lworld) (fs : files) (source target : list nat) (brain_scope scope serialname readscope : string) : res lworld :=
  let readscope := if String.eqb readscope "" then scope else readscope in
  W1 <- compound_initialize add sub eqb W fs source brain_scope serialname readscope ;;
  compound_initialize add sub eqb W1 fs target ("target_" ++ scope)%string serialname ("target_" ++ readscope)%string.
End Serial.
Arguments repository : clear implicits.
Arguments fcontent : clear implicits.
Arguments files : clear implicits.
Arguments outcome : clear implicits.
Arguments WDone {T}. Arguments WNotOpened {T}. Arguments WCut {T}.
Arguments FAbsent {T}. Arguments FGarbage {T}. Arguments FRepo {T}.
