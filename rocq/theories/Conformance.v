(** Conformance.v: the unit tests of /repo replayed on the model. These are tests of the model, not
    properties. *)
From Verif Require Import Base F32 Command Track SeqTree Song.

Definition pc (d : option Z) (c : command) := mk_pcmd d None None c.
Definition nt (n : Z) := pc None (Note n).
Definition run_sustain (d1 d2 : Z) (c1 c2 : command) :=
  match set_sustain (pc (Some d1) c1) (pc (Some d2) c2) with
  | Ok (f, c) => Some (f, sustain c, duration c)
  | _ => None
  end.

(* src/nspc/command.rs:11-90 *)
Example test_sustain_not_note : run_sustain 1 1 Rest Rest = Some (false, None, Some 1).
Proof. reflexivity. Qed.
Example test_sustain_not_followed_by_rest : run_sustain 1 1 (Note 0) Tie = Some (false, None, Some 1).
Proof. reflexivity. Qed.
Example test_sustain_half : run_sustain 1 1 (Note 0) Rest = Some (true, Some 4, Some 2).
Proof. reflexivity. Qed.
Example test_sustain_eighth : run_sustain 1 7 (Note 0) Rest = Some (true, Some 1, Some 8).
Proof. reflexivity. Qed.
Example test_sustain_five_eighths : run_sustain 5 3 (Note 0) Rest = Some (true, Some 5, Some 8).
Proof. reflexivity. Qed.
Example test_sustain_too_short : run_sustain 1 12 (Note 0) Rest = Some (false, None, Some 1).
Proof. reflexivity. Qed.
Example test_sustain_too_long : run_sustain 12 1 (Note 0) Rest = Some (false, None, Some 12).
Proof. reflexivity. Qed.
Example test_sustain_doesnt_divide_evenly : run_sustain 5 6 (Note 0) Rest = Some (false, None, Some 5).
Proof. reflexivity. Qed.
Example test_sustain_very_short_rest : run_sustain 24 1 (Note 0) Rest = Some (true, Some 7, Some 25).
Proof. reflexivity. Qed.

Definition tree_of (l : list pcmd) : outcome tree := add_track Debug empty_tree l 0.
Definition edge_cmds (t : tree) : list (list pcmd) := map ecmds_of (edges_of t).
Definition best (l : list pcmd) := let* t := tree_of l in best_sequence Debug t.
Definition nts (l : list Z) := map nt l.

(* src/nspc/seqtree.rs:31-325 *)
Example test_no_overlaps :
  (let* t := tree_of (nts [1; 2; 3]) in Ok (edge_cmds t)) = Ok [nts [1; 2; 3]; nts [2; 3]; nts [3]].
Proof. vm_compute. reflexivity. Qed.
Example test_overlap :
  (let* t := tree_of (nts [1; 1; 2]) in
   Ok (edge_cmds t, map (fun e => option_map edge_cmds (target_of e)) (edges_of t)))
  = Ok ([nts [1]; nts [2]], [Some [nts [1; 2]; nts [2]]; Some []]).
Proof. vm_compute. reflexivity. Qed.
Example test_repeat :
  (let* t := tree_of (nts [1; 2; 1; 2]) in
   Ok (map (fun e => (ecmds_of e, option_map locs_of (target_of e))) (firstn 1 (edges_of t))))
  = Ok [(nts [1; 2], Some [mk_loc 0 0 2])].
Proof. vm_compute. reflexivity. Qed.
Example test_ineligible_command :
  (let* t := tree_of [nt 1; pc None (CallLoop 0 0); nt 2] in Ok (edge_cmds t)) = Ok [[nt 1]; [nt 2]].
Proof. vm_compute. reflexivity. Qed.
Example test_best_seq_none : best (nts [1; 2; 3]) = Ok None.
Proof. vm_compute. reflexivity. Qed.
Example test_best_seq_no_repeats :
  best (nts [1; 2; 3; 4; 5; 1; 2; 3; 4]) = Ok (Some (mk_seq (nts [1; 2; 3; 4]) [mk_loc 0 0 1; mk_loc 0 5 1])).
Proof. vm_compute. reflexivity. Qed.
Example test_best_seq_repeats :
  best (nts [1; 2; 3; 4; 5; 6; 1; 2; 3; 4; 5; 1; 2; 3; 4; 1; 2; 3; 4; 1; 2; 3; 4])
  = Ok (Some (mk_seq (nts [1; 2; 3; 4]) [mk_loc 0 0 1; mk_loc 0 6 1; mk_loc 0 11 3])).
Proof. vm_compute. reflexivity. Qed.
Definition n1 n := pc (Some 1) (Note n).
Definition sl t := pc None (PitchSlide 1 t 3).
Definition ti d := pc (Some d) Tie.
Definition best_len (l : list pcmd) :=
  let* s := best l in Ok (option_map (fun s => length (seq_cmds s)) s).
Example test_seq_doesnt_break_slides :
  best_len [n1 1; n1 2; n1 3; n1 4; sl 2; ti 2; n1 1; n1 2; n1 3; n1 4; sl 2; ti 3] = Ok (Some 4%nat).
Proof. vm_compute. reflexivity. Qed.
Example test_seq_doesnt_break_slides_at_start :
  best_len [n1 1; sl 2; ti 2; n1 2; n1 3; n1 4; n1 5; n1 1; sl 3; ti 2; n1 2; n1 3; n1 4; n1 5]
  = Ok (Some 4%nat).
Proof. vm_compute. reflexivity. Qed.
Example test_seq_doesnt_break_slides_at_slide_boundary :
  best_len [n1 1; sl 2; ti 2; sl 3; ti 2; sl 4; ti 2; sl 3; ti 2; sl 2; ti 2; sl 3; ti 2; sl 4; ti 2] = Ok None.
Proof. vm_compute. reflexivity. Qed.
