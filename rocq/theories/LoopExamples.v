(** LoopExamples.v: concrete songs for the call-loop properties. *)
From Coq Require Import Arith.
From Verif Require Import Base ProofLib Command Track SeqTree Song SpecLoop TreeProofs TreeProofs2 OptProofs OptExpand.
Open Scope list_scope.

Definition ex_note (k : Z) : pcmd := mk_pcmd (Some 24) (Some 10) (Some 7) (Note k).
Definition ex_block : track := map ex_note [1; 2; 3; 4].

Definition pcmds_dec (l l' : list pcmd) : {l = l'} + {l <> l'} := list_eq_dec pcmd_eq_dec l l'.
Definition repeats_at (tr : track) (i n : nat) : bool :=
  if pcmds_dec (firstn n (skipn i tr)) (firstn n (skipn (i + n) tr)) then Nat.leb (i + n + n) (length tr) else false.
Definition check_no_repeat (tr : track) : bool :=
  forallb (fun i => forallb (fun n => Nat.ltb n 4 || negb (repeats_at tr i n)) (seq 0 (S (length tr)))) (seq 0 (S (length tr))).
Lemma check_ok tr : check_no_repeat tr = true -> no_immediate_repeat tr.
Proof.
  unfold check_no_repeat. intros H x w y E. rewrite forallb_forall in H. specialize (H (length x)). rewrite forallb_forall in H.
  assert (Hl : length tr = (length x + (length w + (length w + length y)))%nat) by (rewrite E, !app_length; lia).
  specialize (H ltac:(apply in_seq; lia) (length w) ltac:(apply in_seq; lia)). apply Bool.orb_true_iff in H. destruct H as [H|H]; [apply Nat.ltb_lt; exact H|].
  exfalso. unfold repeats_at in H. destruct (pcmds_dec _ _) as [_|Hne].
  - apply Bool.negb_true_iff in H. apply Nat.leb_gt in H. lia.
  - apply Hne. rewrite E. rewrite <- skipn_add. rewrite skipn_app, Nat.sub_diag, skipn_all2 by lia. cbn [app skipn].
    rewrite firstn_app, Nat.sub_diag, firstn_all. cbn [firstn]. rewrite app_nil_r.
    rewrite skipn_app, Nat.sub_diag, skipn_all2 by lia. cbn [app skipn]. rewrite firstn_app, Nat.sub_diag, firstn_all. cbn [firstn]. rewrite app_nil_r. reflexivity.
Qed.
Lemma varied_ok ts : forallb check_no_repeat ts = true -> fresh_repeats ts.
Proof. intros H. apply no_repeat_fresh, Forall_forall. intros tr Htr. rewrite forallb_forall in H. apply check_ok. auto. Qed.
(** Checking that repeats are fresh. *)
Definition occurs_b (w tr : list pcmd) (p : nat) : bool := if pcmds_dec (firstn (length w) (skipn p tr)) w then true else false.
Definition same_run (tr : track) (n p q : nat) : bool :=
  (Nat.ltb q (p + n + 4) && if pcmds_dec (firstn (q - p) (skipn p tr)) (firstn (q - p) (skipn (p + n) tr)) then true else false)%bool.
Definition check_fresh (song : list track) : bool :=
  forallb (fun i => let tr := nth i song [] in
    forallb (fun q => forallb (fun n => negb (repeats_at tr q n) ||
      let w := firstn n (skipn q tr) in
      forallb (fun j => let tr' := nth j song [] in
        forallb (fun p => negb (occurs_b w tr' p) || if Nat.eqb j i then (Nat.leb q p || same_run tr n p q)%bool else false) (seq 0 (length tr')))
        (seq 0 (S i))) (seq 4 (length tr))) (seq 0 (length tr))) (seq 0 (length song)).
Lemma occurs_firstn w tr p : occurs w tr p -> firstn (length w) (skipn p tr) = w.
Proof. intros H. rewrite (occurs_skipn _ _ _ H), firstn_app, Nat.sub_diag, firstn_all. apply app_nil_r. Qed.
Lemma check_fresh_ok song : check_fresh song = true -> fresh_repeats song.
Proof.
  unfold check_fresh. intros H i tr w q Htr H4 Hw Hq j tr' p Htr' Hp Hb. unfold track in *.
  pose proof (proj1 (occurs_nth _ _ _) Hq) as [Hq1 _]. pose proof (proj1 (occurs_nth _ _ _) Hp) as [Hp1 _]. rewrite app_length in Hq1.
  rewrite forallb_forall in H. specialize (H i ltac:(apply in_seq; apply nth_error_lt in Htr; lia)). cbn zeta in H. rewrite (nth_error_nth _ _ [] Htr) in H.
  rewrite forallb_forall in H. specialize (H q ltac:(apply in_seq; lia)). rewrite forallb_forall in H. specialize (H (length w) ltac:(apply in_seq; lia)).
  assert (Hq0 : occurs w tr q) by (destruct Hq as (a & c & E & El); exists a, (w ++ c); rewrite E, <- app_assoc; auto).
  assert (Hq2 : occurs w tr (q + length w)).
  { destruct Hq as (a & c & E & El). exists (a ++ w), c. rewrite E, app_length, <- !app_assoc. auto. }
  assert (Hr : repeats_at tr q (length w) = true).
  { unfold repeats_at. rewrite (occurs_firstn _ _ _ Hq0), (occurs_firstn _ _ _ Hq2). destruct (pcmds_dec w w) as [_|]; [|congruence]. apply Nat.leb_le. lia. }
  rewrite Hr in H. cbn [negb orb] in H. rewrite (occurs_firstn _ _ _ Hq0) in H. rewrite forallb_forall in H. specialize (H j ltac:(apply in_seq; lia)).
  cbn zeta in H. rewrite (nth_error_nth _ _ [] Htr') in H. rewrite forallb_forall in H. specialize (H p ltac:(apply in_seq; lia)).
  unfold occurs_b in H. rewrite (occurs_firstn _ _ _ Hp) in H. destruct (pcmds_dec w w) as [_|]; [|congruence]. cbn [negb orb] in H.
  destruct (Nat.eqb_spec j i) as [->|Hne]; [|discriminate]. split; [reflexivity|]. apply Bool.orb_true_iff in H. destruct H as [H|H]; [apply Nat.leb_le in H; lia|].
  unfold same_run in H. apply Bool.andb_true_iff in H. destruct H as [H1 H2]. apply Nat.ltb_lt in H1. split; [exact H1|].
  destruct (pcmds_dec _ _) as [E|]; [|discriminate]. intros k Hk. 
  assert (En : nth_error (firstn (q - p) (skipn p tr)) (k - p) = nth_error (firstn (q - p) (skipn (p + length w) tr)) (k - p)) by (f_equal; exact E).
  rewrite !nth_error_firstn, !nth_error_skipped in En by lia. replace (p + (k - p))%nat with k in En by lia. rewrite En. f_equal. lia.
Qed.
(** Checking that a song plays as it was. *)
Definition plain_b (pc : pcmd) : bool := match cmd pc with CallLoop _ _ => false | _ => true end.
Fixpoint expand (song : list track) (l : list pcmd) : option (list pcmd) :=
  match l with
  | [] => Some []
  | pc :: r =>
      match expand song r with
      | None => None
      | Some out =>
          match cmd pc with
          | CallLoop t n =>
              match nth_error song t with
              | Some body => if (forallb plain_b body && (0 <=? n))%bool then Some (copies (Z.to_nat n) body ++ out) else None
              | None => None
              end
          | _ => Some (pc :: out)
          end
      end
  end.
Lemma plain_plays song body : forallb plain_b body = true -> plays_as song body body.
Proof.
  intros H. apply plays_free, Forall_forall. intros pc Hp t n E. rewrite forallb_forall in H. specialize (H pc Hp). unfold plain_b in H. rewrite E in H. discriminate.
Qed.
Lemma expand_plays song l : forall out, expand song l = Some out -> plays_as song l out.
Proof.
  induction l as [|pc l IH]; intros out H; cbn [expand] in H; [injection H as <-; constructor|].
  destruct (expand song l) as [o|]; [|discriminate]. specialize (IH o eq_refl).
  destruct (cmd pc) eqn:E; try (injection H as <-; apply pa_plain; [intros t n E'; congruence|exact IH]).
  destruct (nth_error song _) as [body|] eqn:En; [|discriminate]. destruct (forallb plain_b body && _)%bool eqn:Eb; [|discriminate]. injection H as <-.
  apply Bool.andb_true_iff in Eb. destruct Eb as [E1 E2]. eapply pa_call; [exact E|lia|exact En|apply plain_plays; exact E1|exact IH].
Qed.
Definition keeps_b (trs r : list track) : bool :=
  forallb (fun i => match nth_error trs i, nth_error r i with
    | Some o, Some tr => match expand r tr with Some out => if pcmds_dec out o then true else false | None => false end
    | _, _ => false end) (seq 0 (length trs)).
Lemma keeps_b_ok trs r : keeps_b trs r = true -> keeps_music trs r.
Proof.
  intros H i o Ho. unfold keeps_b in H. rewrite forallb_forall in H. specialize (H i ltac:(apply in_seq; apply nth_error_lt in Ho; lia)). unfold track in *. rewrite Ho in H.
  destruct (nth_error r i) as [tr|]; [|discriminate]. exists tr. split; [reflexivity|]. apply expand_plays.
  destruct (expand r tr) as [out|]; [|discriminate]. destruct (pcmds_dec out o) as [->|]; [reflexivity|discriminate].
Qed.
Fixpoint check_free (l : list pcmd) : bool :=
  match l with [] => true | pc :: l' => match cmd pc with CallLoop _ _ => false | _ => check_free l' end end.
Lemma check_free_ok l : check_free l = true -> loop_free l.
Proof. induction l as [|pc l IH]; cbn [check_free]; intros H; constructor; destruct (cmd pc); try discriminate H; try (apply IH; exact H); congruence. Qed.
Definition plain_calls (n : nat) (trs : list track) : bool := forallb check_free (skipn n trs).
(** Evaluating what a finished song plays as. *)
Lemma plays_concrete b trs r i tr : Forall loop_free trs -> optimize_call_loops b trs (length trs) = Ok r -> (i < length trs)%nat -> nth_error r i = Some tr -> plays_as r tr (exp r tr).
Proof.
  intros Hf E Hi Htr. pose proof (optimize_shape b trs r Hf E) as Hsh. apply (plays_exp (length trs)); [exact Hsh|]. destruct Hsh as [H1 _]. rewrite Forall_forall in H1. apply H1.
  eapply nth_error_In. rewrite nth_error_firstn by exact Hi. exact Htr.
Qed.

(** A song with repetitions at a distance, in two tracks. *)
Definition ex_song : list track := [ex_block ++ [ex_note 9] ++ ex_block; [ex_note 5; ex_note 6] ++ ex_block].
Lemma ex_song_free : Forall loop_free ex_song. Proof. repeat (constructor; [apply check_free_ok; reflexivity|]). constructor. Qed.
Lemma ex_song_fresh : fresh_repeats ex_song. Proof. apply check_fresh_ok. vm_compute. reflexivity. Qed.
Definition ex_call (t : nat) (k : Z) : pcmd := mk_pcmd (Some 0) (Some 0) (Some 0) (CallLoop t k).
Lemma ex_song_result b : optimize_call_loops b ex_song 2 =
  Ok [[ex_call 2 1; ex_note 9; ex_call 2 1]; [ex_note 5; ex_note 6; ex_call 2 1]; ex_block].
Proof. destruct b; vm_compute; reflexivity. Qed.

(** Blocks played three times and twice in a row, and once more later. *)
Definition ex_other : track := map ex_note [5; 6; 7; 8].
Definition ex_run : list track := [ex_block ++ ex_block ++ ex_block ++ [ex_note 9] ++ ex_block; ex_note 11 :: ex_other ++ ex_other ++ ex_block ++ [ex_note 12]].
Definition ex_run_result : list track :=
  [[ex_call 2 3; ex_note 9; ex_call 2 1]; [ex_note 11; ex_call 3 2; ex_call 2 1; ex_note 12]; ex_block; ex_other].
Lemma ex_run_ok : Forall loop_free ex_run /\ fresh_repeats ex_run /\ forall b, optimize_call_loops b ex_run (length ex_run) = Ok ex_run_result.
Proof.
  split; [repeat (constructor; [apply check_free_ok; reflexivity|]); constructor|]. split; [apply check_fresh_ok; vm_compute; reflexivity|]. intros []; vm_compute; reflexivity.
Qed.
(** A repeat that is not fresh, and loops that keep the music all the same. *)
Definition ex_again : list track := [ex_block ++ [ex_note 9] ++ ex_block ++ ex_block].
Lemma ex_again_ok : Forall loop_free ex_again /\ ~ fresh_repeats ex_again /\
  forall b, exists r, optimize_call_loops b ex_again (length ex_again) = Ok r /\ keeps_music ex_again r.
Proof.
  split; [repeat (constructor; [apply check_free_ok; reflexivity|]); constructor|]. split.
  - intros H. assert (Hm : Forall may_loop ex_block) by (repeat (constructor; [exact I|]); constructor).
    destruct (H 0%nat (nth 0 ex_again []) ex_block 5%nat eq_refl ltac:(cbn; lia) Hm) with (j := 0%nat) (tr' := nth 0 ex_again []) (p := 0%nat) as (_ & _ & Hk).
    + exists (ex_block ++ [ex_note 9]), []. split; reflexivity.
    + reflexivity.
    + exists [], ([ex_note 9] ++ ex_block ++ ex_block). split; reflexivity.
    + right. split; [reflexivity|lia].
    + specialize (Hk 0%nat ltac:(lia)). discriminate Hk.
  - intros b. exists [[ex_call 1 1; ex_note 9; ex_call 1 2]; ex_block]. split; [destruct b; vm_compute; reflexivity|]. apply keeps_b_ok. vm_compute. reflexivity.
Qed.
(** An occurrence of a block, and later the same block twice in a row. *)
Definition bad_track : track := ex_block ++ [ex_note 9] ++ ex_block ++ ex_block ++ map ex_note [7; 8; 9; 10; 11; 12].
Definition bad_result : list track :=
  Eval vm_compute in match optimize_call_loops Release [bad_track] 1 with Ok r => r | _ => [] end.
Lemma bad_result_ok b : optimize_call_loops b [bad_track] 1 = Ok bad_result. Proof. destruct b; vm_compute; reflexivity. Qed.
Lemma bad_track_music b : exists r tr' out, optimize_call_loops b [bad_track] 1 = Ok r /\ nth_error r 0 = Some tr' /\ plays_as r tr' out /\ out <> bad_track.
Proof.
  assert (Hf : Forall loop_free [bad_track]) by (constructor; [apply check_free_ok; reflexivity|constructor]).
  exists bad_result, (nth 0 bad_result []), (exp bad_result (nth 0 bad_result [])). split; [apply bad_result_ok|]. split; [reflexivity|]. split; [|vm_compute; discriminate].
  apply (plays_concrete b [bad_track] bad_result 0); [exact Hf|apply bad_result_ok|cbn; lia|reflexivity].
Qed.

(** A block that occurs 256 times. *)
Definition often : list track := repeat ex_block 256.
Lemma often_panics : optimize_call_loops Debug often (length often) = Panic POverflow. Proof. vm_compute. reflexivity. Qed.
Lemma often_missed : optimize_call_loops Release often (length often) = Ok often. Proof. vm_compute. reflexivity. Qed.

(** The immediate repetition alone is handled. *)
Definition ex_twice : list track := [ex_block ++ ex_block ++ [ex_note 9]].
Lemma ex_twice_tree b : exists t s, build_tree b empty_tree ex_twice 0 = Ok t /\ best_sequence b t = Ok (Some s) /\
  s = mk_seq ex_block [mk_loc 0 0 2] /\ Forall (genuine ex_twice (seq_cmds s)) (seq_locs s).
Proof.
  destruct b; eexists _, _; (split; [vm_compute; reflexivity|]); (split; [vm_compute; reflexivity|]); (split; [reflexivity|]);
  (constructor; [|constructor]); (exists (ex_block ++ ex_block ++ [ex_note 9]); split; [reflexivity|]); exists [], [ex_note 9]; split; reflexivity.
Qed.
Lemma ex_song_tree b : exists t s, build_tree b empty_tree ex_song 0 = Ok t /\ best_sequence b t = Ok (Some s) /\
  s = mk_seq ex_block [mk_loc 0 0 1; mk_loc 0 5 1; mk_loc 1 2 1].
Proof. destruct b; eexists _, _; (split; [vm_compute; reflexivity|]); (split; [vm_compute; reflexivity|reflexivity]). Qed.
Lemma music_changes b : exists (original : track) r optimised out, loop_free original /\ optimize_call_loops b [original] 1 = Ok r /\ nth_error r 0 = Some optimised /\ plays_as r optimised out /\ out <> original.
Proof. destruct (bad_track_music b) as (r & t & o & H). exists bad_track, r, t, o. split; [apply check_free_ok; reflexivity|exact H]. Qed.
Lemma plays_unique song l o1 o2 : plays_as song l o1 -> plays_as song l o2 -> o1 = o2.
Proof. intros H1 H2. exact (plays_det song l o1 H1 o2 H2). Qed.
Lemma often_stops : exists trs : list track, Forall loop_free trs /\ optimize_call_loops Debug trs (length trs) = Panic POverflow /\ optimize_call_loops Release trs (length trs) = Ok trs.
Proof. exists often. split; [apply Forall_forall; intros x Hx; apply repeat_spec in Hx; subst x; apply check_free_ok; reflexivity|]. split; [exact often_panics|exact often_missed]. Qed.
