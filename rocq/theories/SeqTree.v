(** SeqTree.v: model of src/nspc/seqtree.rs (non-test part, lines 328-591). *)
From Verif Require Import Base Command Track.

(** src/nspc/seqtree.rs:328-333 [struct Location]; [repeat_count] is a u8. *)
Record location := mk_loc { track_idx : nat; cmd_idx : nat; repeat_count : Z }.

(** src/nspc/seqtree.rs:335-345 [struct Edge] and [struct SeqTree]. *)
Inductive tree := Node (edges : list edge) (locs : list location)
with edge := Edge (ecmds : list pcmd) (target : option tree).

Definition edges_of (t : tree) := match t with Node es _ => es end.
Definition locs_of (t : tree) := match t with Node _ ls => ls end.
Definition ecmds_of (e : edge) := match e with Edge c _ => c end.
Definition target_of (e : edge) := match e with Edge _ t => t end.

(** src/nspc/seqtree.rs:347-351 [struct Sequence]. *)
Record sequence := mk_seq { seq_cmds : list pcmd; seq_locs : list location }.

Definition empty_tree : tree := Node [] [].   (* src/nspc/seqtree.rs:374-379 *)

(** src/nspc/seqtree.rs:353-371 [add_location]: increment the first adjoining location, else push. *)
Fixpoint add_location (b : build) (ls : list location) (ti ci seq_len : nat) : outcome (list location) :=
  match ls with
  | [] => Ok [mk_loc ti ci 1]
  | l :: ls' =>
      if (Nat.eqb (track_idx l) ti && Nat.eqb (cmd_idx l + seq_len) ci)%bool then
        let* r := arith b 8 (repeat_count l + 1) in
        Ok (mk_loc (track_idx l) (cmd_idx l) r :: ls')
      else
        let* r := add_location b ls' ti ci seq_len in Ok (l :: r)
  end.

(** src/nspc/seqtree.rs:400-403: position of the first edge with the same first command
    ([edge.commands[0]] panics on an empty edge). *)
Fixpoint find_edge (es : list edge) (c : pcmd) : outcome (option nat) :=
  match es with
  | [] => Ok None
  | e :: es' =>
      match ecmds_of e with
      | [] => Panic PIndex
      | c0 :: _ =>
          if pcmd_eqb c0 c then Ok (Some O)
          else let* r := find_edge es' c in Ok (option_map S r)
      end
  end.

(** src/nspc/seqtree.rs:405-412: length of the longest common prefix. *)
Fixpoint shared_len (cmds ecmds : list pcmd) : nat :=
  match cmds, ecmds with
  | c :: cs, e :: es => if pcmd_eqb c e then S (shared_len cs es) else O
  | _, _ => O
  end.

(** src/nspc/seqtree.rs:413-422: drop trailing commands that may not end a loop. *)
Fixpoint trim_shared (n : nat) (cmds ecmds : list pcmd) : nat :=
  match n with
  | O => O
  | S n' =>
      if (Nat.ltb n (length cmds) || Nat.ltb n (length ecmds))%bool
         && negb (match nth_error cmds n' with
                  | Some c => can_be_last_in_call_loop c
                  | None => true
                  end)
      then trim_shared n' cmds ecmds
      else n
  end.

Fixpoint take_while {A} (p : A -> bool) (l : list A) : list A :=
  match l with
  | [] => []
  | x :: l' => if p x then x :: take_while p l' else []
  end.

(** src/nspc/seqtree.rs:475-496: push a fresh edge with the eligible prefix of the commands. The nested
    call [target.add_commands(&[], ..)] only adds one location to an empty list. *)
Definition push_edge (es : list edge) (cmds : list pcmd) (ti seq_start seq_len : nat) : list edge :=
  match take_while call_loop_eligible cmds with
  | [] => es
  | rest_commands =>
      es ++ [Edge rest_commands (Some (Node [] [mk_loc ti seq_start 1]))]
  end.

(** src/nspc/seqtree.rs:447-462: the node inserted in the middle of a split edge, before the new
    commands are added to it. *)
Definition split_node (b : build) (ecmds : list pcmd) (old : option tree) (n shared_seq_len : nat)
  : outcome tree :=
  match old with
  | Some old_target =>
      let* ls := ofold (fun acc l => add_location b acc (track_idx l) (cmd_idx l) shared_seq_len)
                       (locs_of old_target) [] in
      Ok (Node [Edge (skipn n ecmds) (Some old_target)] ls)
  | None => Ok empty_tree
  end.

(** src/nspc/seqtree.rs:387-498 [SeqTree::add_commands]. Every recursive call is on a strictly shorter
    command list, so [fuel > length cmds] suffices (proved). *)
Fixpoint add_commands (fuel : nat) (b : build) (t : tree) (cmds : list pcmd)
  (ti seq_start seq_len : nat) : outcome tree :=
  match fuel with
  | O => Diverge
  | S fuel' =>
      let* ls := if Nat.ltb 0 seq_len then add_location b (locs_of t) ti seq_start seq_len
                 else Ok (locs_of t) in
      match cmds with
      | [] => Ok (Node (edges_of t) ls)
      | c0 :: _ =>
          let* fe := find_edge (edges_of t) c0 in
          match fe with
          | None => Ok (Node (push_edge (edges_of t) cmds ti seq_start seq_len) ls)
          | Some i =>
              let* e := or_panic PIndex (nth_error (edges_of t) i) in
              let n := trim_shared (shared_len cmds (ecmds_of e)) cmds (ecmds_of e) in
              if Nat.ltb 0 n && can_be_first_in_call_loop c0 then
                let shared_seq_len := (seq_len + n)%nat in
                let* e' :=
                  if Nat.eqb n (length (ecmds_of e)) then
                    let* tgt := or_panic PUnwrap (target_of e) in
                    let* tls := add_location b (locs_of tgt) ti seq_start shared_seq_len in
                    let tgt' := Node (edges_of tgt) tls in
                    let* tgt'' := if Nat.ltb n (length cmds)
                                  then add_commands fuel' b tgt' (skipn n cmds) ti seq_start shared_seq_len
                                  else Ok tgt' in
                    Ok (Edge (ecmds_of e) (Some tgt''))
                  else
                    let* nt := split_node b (ecmds_of e) (target_of e) n shared_seq_len in
                    let* nt' := add_commands fuel' b nt (skipn n cmds) ti seq_start shared_seq_len in
                    Ok (Edge (firstn n cmds) (Some nt')) in
                let* es := or_panic PIndex (set_nth (edges_of t) i e') in
                Ok (Node es ls)
              else Ok (Node (push_edge (edges_of t) cmds ti seq_start seq_len) ls)
          end
      end
  end.

(** src/nspc/seqtree.rs:381-385 [SeqTree::add_track]: all suffixes, longest first. *)
Definition add_track (b : build) (t : tree) (tr : track) (ti : nat) : outcome tree :=
  ofold (fun t i => add_commands (S (length tr)) b t (skipn i tr) ti i 0) (seq 0 (length tr)) t.

(** src/nspc/seqtree.rs:572-590 [consolidate_locations]; [acc] is the result so far, reversed. *)
Definition loc_end (l : location) (seq_length : nat) : nat :=
  (cmd_idx l + seq_length * Z.to_nat (repeat_count l))%nat.
Fixpoint consolidate_from (b : build) (acc : list location) (ls : list location) (seq_length : nat)
  : outcome (list location) :=
  match ls with
  | [] => Ok (rev acc)
  | l :: ls' =>
      match acc with
      | a :: acc' =>
          if Nat.eqb (track_idx a) (track_idx l) && Nat.ltb (cmd_idx l) (loc_end a seq_length) then
            consolidate_from b acc ls' seq_length
          else if Nat.eqb (track_idx a) (track_idx l) && Nat.eqb (loc_end a seq_length) (cmd_idx l) then
            let* r := arith b 8 (repeat_count a + 1) in
            consolidate_from b (mk_loc (track_idx a) (cmd_idx a) r :: acc') ls' seq_length
          else consolidate_from b (l :: acc) ls' seq_length
      | [] => consolidate_from b [l] ls' seq_length
      end
  end.
Definition consolidate_locations (b : build) (ls : list location) (seq_length : nat)
  : outcome (list location) := consolidate_from b [] ls seq_length.

(** src/nspc/seqtree.rs:511-553: the candidate sequences in the order the iterator yields them. The
    explicit stack of [TreeIter] visits the tree in depth-first pre-order; here that order is written
    as a recursive function (file TreeIter.v models the stack machine and proves they agree). *)
Fixpoint sequences (b : build) (prefix : list pcmd) (t : tree) : outcome (list sequence) :=
  match t with
  | Node es _ =>
      (fix go (es : list edge) : outcome (list sequence) :=
         match es with
         | [] => Ok []
         | Edge ec tgt :: es' =>
             match tgt with
             | None => Panic PUnwrap
             | Some t' =>
                 let cmds := prefix ++ ec in
                 let* ls := consolidate_locations b (locs_of t') (length cmds) in
                 let* sub := sequences b cmds t' in
                 let* rest := go es' in
                 Ok (mk_seq cmds ls :: sub ++ rest)
             end
         end) es
  end.

(** src/nspc/seqtree.rs:563-567: the u8 sum of repeat counts. *)
Definition total_repeats_u8 (b : build) (ls : list location) : outcome Z :=
  ofold (fun acc l => arith b 8 (acc + repeat_count l)) ls 0.

(** src/nspc/seqtree.rs:561-568: the filter. *)
Definition keep_sequence (b : build) (s : sequence) : outcome bool :=
  if Nat.ltb 3 (length (seq_cmds s)) then
    let* n := total_repeats_u8 b (seq_locs s) in Ok (1 <? n)
  else Ok false.

(** src/nspc/seqtree.rs:501-509 [score]; the subtraction is on usize. *)
Definition score (b : build) (s : sequence) : outcome Z :=
  let commands_replaced := zsum (map repeat_count (seq_locs s)) * Z.of_nat (length (seq_cmds s)) in
  let commands_used := Z.of_nat (length (seq_cmds s) + length (seq_locs s)) in
  arith b 64 (commands_replaced - commands_used).

(** src/nspc/seqtree.rs:561-569: [filter(..).max_by_key(score)]; the last maximum wins. *)
Fixpoint best_of (b : build) (best : option (sequence * Z)) (ss : list sequence)
  : outcome (option (sequence * Z)) :=
  match ss with
  | [] => Ok best
  | s :: ss' =>
      let* k := keep_sequence b s in
      if k then
        let* sc := score b s in
        match best with
        | Some (_, bsc) => if bsc <=? sc then best_of b (Some (s, sc)) ss' else best_of b best ss'
        | None => best_of b (Some (s, sc)) ss'
        end
      else best_of b best ss'
  end.

(** src/nspc/seqtree.rs:500-570 [SeqTree::best_sequence]. *)
Definition best_sequence (b : build) (t : tree) : outcome (option sequence) :=
  let* ss := sequences b [] t in
  let* r := best_of b None ss in
  Ok (option_map fst r).
