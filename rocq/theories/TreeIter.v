(** TreeIter.v: model of the iterator inside [SeqTree::best_sequence], src/nspc/seqtree.rs:511-569,
    with its explicit stack. SeqTree.v writes the same search as a recursive function; that they agree
    is proved in IterProofs.v. *)
From Verif Require Import Base Command Track SeqTree.

(** src/nspc/seqtree.rs:511-515 [struct StackItem]. *)
Record stack_item := mk_item { si_node : tree; si_cmds : list pcmd; si_child : nat }.

(** src/nspc/seqtree.rs:529-534: leave finished nodes. The stack is a list, its top first; [None] is an
    exhausted stack. *)
Fixpoint pop_finished (top : stack_item) (rest : list stack_item) : option (stack_item * list stack_item) :=
  if Nat.eqb (si_child top) (length (edges_of (si_node top))) then
    match rest with
    | [] => None
    | item :: rest' => pop_finished item rest'
    end
  else Some (top, rest).

(** src/nspc/seqtree.rs:524-552 [TreeIter::next]: the next sequence and the new stack. *)
Definition iter_next (b : build) (stack : list stack_item) : outcome (option sequence * list stack_item) :=
  match stack with
  | [] => Ok (None, [])
  | top0 :: rest0 =>
      match pop_finished top0 rest0 with
      | None => Ok (None, [])
      | Some (top, rest) =>
          let* e := or_panic PIndex (nth_error (edges_of (si_node top)) (si_child top)) in
          let top' := mk_item (si_node top) (si_cmds top) (S (si_child top)) in
          let commands := si_cmds top ++ ecmds_of e in
          let* target := or_panic PUnwrap (target_of e) in
          let* ls := consolidate_locations b (locs_of target) (length commands) in
          Ok (Some (mk_seq commands ls), mk_item target commands 0 :: top' :: rest)
      end
  end.

(** src/nspc/seqtree.rs:561-569: one sequence passes the filter and is compared with the best so far;
    [max_by_key] computes each key once and keeps the later of two equal ones. *)
Definition consider (b : build) (best : option (sequence * Z)) (s : sequence)
  : outcome (option (sequence * Z)) :=
  let* k := keep_sequence b s in
  if k then
    let* sc := score b s in
    match best with
    | Some (_, bsc) => if bsc <=? sc then Ok (Some (s, sc)) else Ok best
    | None => Ok (Some (s, sc))
    end
  else Ok best.

(** src/nspc/seqtree.rs:555-569: the consumer drives the iterator until it yields nothing. Every call
    passes one edge of the tree, so [fuel > number of edges] suffices (proved). *)
Fixpoint iter_best (fuel : nat) (b : build) (stack : list stack_item) (best : option (sequence * Z))
  : outcome (option (sequence * Z)) :=
  match fuel with
  | O => Diverge
  | S fuel' =>
      let* r := iter_next b stack in
      match r with
      | (None, _) => Ok best
      | (Some s, stack') =>
          let* best' := consider b best s in
          iter_best fuel' b stack' best'
      end
  end.

(** src/nspc/seqtree.rs:500-570 [SeqTree::best_sequence], as written. *)
Definition best_sequence_iter (fuel : nat) (b : build) (t : tree) : outcome (option sequence) :=
  let* r := iter_best fuel b [mk_item t [] 0] None in
  Ok (option_map fst r).

(** All the sequences the iterator yields, in order. *)
Fixpoint iter_collect (fuel : nat) (b : build) (stack : list stack_item) : outcome (list sequence) :=
  match fuel with
  | O => Diverge
  | S fuel' =>
      let* r := iter_next b stack in
      match r with
      | (None, _) => Ok []
      | (Some s, stack') => let* l := iter_collect fuel' b stack' in Ok (s :: l)
      end
  end.

(** Number of edges of a tree. *)
Fixpoint edge_count (t : tree) : nat :=
  match t with
  | Node es _ =>
      (fix go (es : list edge) : nat :=
         match es with
         | [] => O
         | Edge _ tgt :: es' =>
             S (match tgt with Some t' => edge_count t' | None => O end + go es')
         end) es
  end.
