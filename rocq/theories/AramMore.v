(** AramMore.v: uniqueness of playing, optimised songs in ARAM, and examples (C28). *)
From Coq Require Import ZArith List Bool Lia ZifyBool ZifyNat Arith.
From Verif Require Import Base ProofLib Command Track SeqTree Song SpecNspc SpecLoop SpecRom SpecAram CodecProofs FrameProofs TreeProofs TreeProofs2 OptProofs OptExpand LoopExamples AramProofs.
Open Scope Z_scope.
Open Scope list_scope.

(** ** Playing is unique. *)
Scheme run_ind2 := Minimality for run Sort Prop with run_times_ind2 := Minimality for run_times Sort Prop.
Combined Scheme run_both from run_ind2, run_times_ind2.
Ltac same_fetch := match goal with H : fetch _ ?a = Some _, H' : fetch _ ?a = Some _ |- _ => rewrite H in H'; injection H' as ? ?; subst; try discriminate end.
Lemma run_det_both mem :
  (forall calls a st es st', run mem calls a st es st' -> forall es2 st2, run mem calls a st es2 st2 -> es2 = es /\ st2 = st') /\
  (forall n a st es st', run_times mem n a st es st' -> forall es2 st2, run_times mem n a st es2 st2 -> es2 = es /\ st2 = st').
Proof.
  apply run_both.
  - intros calls a st a' Hf es2 st2 H. inversion H; subst; try (match goal with H : fetch _ ?a = Some _, H' : fetch _ ?a = Some _ |- _ => rewrite H in H'; injection H' as ? ?; subst; try discriminate; try contradiction end). auto.
  - intros calls a dur vs d v a' es st Hf Hr IH es2 st2 H. inversion H; subst; match goal with H : fetch _ ?a = Some _, H' : fetch _ ?a = Some _ |- _ => rewrite H in H'; try discriminate H'; injection H'; intros; subst end; try discriminate.
    all: first [contradiction | apply IH; assumption].
  - intros calls a dur vs t a' es st Hf Hc Hr IH es2 st2 H. inversion H; subst; match goal with H : fetch _ ?a = Some _, H' : fetch _ ?a = Some _ |- _ => rewrite H in H'; try discriminate H'; injection H'; intros; subst end; try contradiction.
    all: edestruct IH as [E1 E2]; [eassumption|]; subst; auto.
  - intros a st lo hi n a' es1 st1 es2 st2 Hf Hn H1 IH1 H2 IH2 es' st' H. inversion H; subst; match goal with H : fetch _ ?a = Some _, H' : fetch _ ?a = Some _ |- _ => rewrite H in H'; try discriminate H'; injection H'; intros; subst end; try contradiction.
    all: edestruct IH1 as [E1 E2]; [eassumption|]; subst; edestruct IH2 as [E1 E2]; [eassumption|]; subst; auto.
  - intros a st es2 st2 H. inversion H; subst; auto.
  - intros n a st es1 st1 es2 st2 H1 IH1 H2 IH2 es' st' H. inversion H; subst. edestruct IH1 as [E1 E2]; [eassumption|]. subst. edestruct IH2 as [E1 E2]; [eassumption|]. subst. auto.
Qed.
Lemma run_det mem calls a st es1 st1 es2 st2 : run mem calls a st es1 st1 -> run mem calls a st es2 st2 -> es1 = es2 /\ st1 = st2.
Proof. intros H1 H2. destruct (proj1 (run_det_both mem) _ _ _ _ _ H1 _ _ H2) as [-> ->]. auto. Qed.

(** ** Commands of an optimised song. *)
Definition from_song (orig : list track) (pc : pcmd) : Prop :=
  (exists tr, In tr orig /\ In pc tr) \/ (exists t k, 1 <= k <= 4 /\ pc = mk_pcmd (Some 0) (Some 0) (Some 0) (CallLoop t k)).
Lemma from_song_step n orig trs s trs' : Forall (fun tr : track => Forall (from_song orig) tr) trs -> step n trs s trs' ->
  Forall (fun tr : track => Forall (from_song orig) tr) trs'.
Proof.
  intros H Hs. pose proof Hs as [Hn Hc Hl Ht Hr Hlen]. rewrite <- (firstn_skipn n trs'). apply Forall_app. split.
  - apply Forall_forall. intros x Hx. apply In_nth_error in Hx. destruct Hx as [i Hx].
    assert (Hi : (i < n)%nat) by (rewrite <- Hl; eapply nth_error_lt; exact Hx). rewrite nth_error_firstn in Hx by exact Hi.
    destruct (nth_error trs i) as [tr|] eqn:Etr; [|apply nth_error_None in Etr; lia]. rewrite (Ht i tr Hi Etr) in Hx. injection Hx as <-.
    apply Forall_forall. intros pc Hpc. destruct (rewritten_in _ _ _ _ _ _ Hpc) as [Hin|(l & Hin & ->)].
    + rewrite Forall_forall in H. specialize (H tr (nth_error_In _ _ Etr)). rewrite Forall_forall in H. exact (H pc Hin).
    + right. eexists _, _. split; [|reflexivity]. apply filter_In in Hin. destruct Hin as [Hin _].
      pose proof (cd_count _ _ (proj1 Hc)) as Hk. rewrite Forall_forall in Hk. apply Hk, Hin.
  - rewrite Hr. apply Forall_app. split; [rewrite Forall_forall in H |- *; intros x Hx; apply H; rewrite <- (firstn_skipn n trs); apply in_app_iff; right; exact Hx|]. constructor; [|constructor].
    destruct (seq_locs s) as [|l ls] eqn:E; [destruct Hc as (_ & _ & Hx); rewrite E in Hx; unfold total in Hx; cbn in Hx; lia|].
    pose proof (cd_occ _ _ (proj1 Hc)) as Ho. rewrite E in Ho. inversion Ho as [|? ? Hocc _]; subst. destruct Hocc as (tr & Htr & pre & post & Etr & _).
    rewrite Forall_forall in H. assert (In tr trs) by (rewrite <- (firstn_skipn n trs); apply in_app_iff; left; eapply nth_error_In; exact Htr). specialize (H tr H0). rewrite Forall_forall in H |- *. intros pc Hpc. apply H. rewrite Etr. apply in_app_iff. right. apply in_app_iff. left. exact Hpc.
Qed.
Lemma optimize_from b trs r : optimize_call_loops b trs (length trs) = Ok r -> Forall (fun tr : track => Forall (from_song trs) tr) r.
Proof.
  intros E. eapply (optimize_inv b (length trs) (fun x => Forall (fun tr : track => Forall (from_song trs) tr) x)); [intros; eapply from_song_step; eassumption|reflexivity| |exact E].
  apply Forall_forall. intros tr Htr. apply Forall_forall. intros pc Hpc. left. eauto.
Qed.
Lemma optimize_playable b trs r : Forall (fun tr : track => Forall playable tr) trs -> optimize_call_loops b trs (length trs) = Ok r -> Forall (fun tr : track => Forall playable tr) r.
Proof.
  intros Hp E. pose proof (optimize_from b trs r E) as H. eapply Forall_impl; [|exact H]. intros tr Htr. eapply Forall_impl; [|exact Htr]. intros pc [(tr0 & H1 & H2)|(t & k & Hk & ->)].
  - rewrite Forall_forall in Hp. specialize (Hp tr0 H1). rewrite Forall_forall in Hp. exact (Hp pc H2).
  - cbn. repeat split; try reflexivity; lia.
Qed.
Lemma optimize_full b trs r : Forall (fun tr : track => Forall full tr) trs -> optimize_call_loops b trs (length trs) = Ok r -> Forall (fun tr : track => Forall full tr) r.
Proof.
  intros Hp E. pose proof (optimize_from b trs r E) as H. eapply Forall_impl; [|exact H]. intros tr Htr. eapply Forall_impl; [|exact Htr]. intros pc [(tr0 & H1 & H2)|(t & k & Hk & ->)].
  - rewrite Forall_forall in Hp. specialize (Hp tr0 H1). rewrite Forall_forall in Hp. exact (Hp pc H2).
  - intros [X|[X|X]]; cbn in X; congruence.
Qed.
Lemma optimize_top b trs r : optimize_call_loops b trs (length trs) = Ok r -> (length trs <= length r)%nat.
Proof. intros E. eapply (optimize_inv b (length trs) (fun _ => True)); [auto|reflexivity|exact I|exact E]. Qed.
Lemma free_wfl trs : Forall loop_free trs -> well_formed_loops (length trs) trs.
Proof. intros H. apply shape_wfl, shape_start, H. Qed.

(** ** The two songs side by side. *)
Lemma heard_same loud b trs r ps mem1 a1 lp1 at1 mem2 a2 lp2 at2 i tr1 tr2 :
  Forall loop_free trs -> keeps_music trs r -> Forall (fun tr : track => Forall playable tr) trs -> optimize_call_loops b trs (length trs) = Ok r ->
  (forall p, In p ps -> p <> [] /\ Forall (fun t => (t < length trs)%nat) p) ->
  song_in mem1 a1 lp1 (mk_song ps trs) at1 -> song_in mem2 a2 lp2 (mk_song ps r) at2 ->
  nth_error trs i = Some tr1 -> nth_error r i = Some tr2 -> tr1 <> [] ->
  (loud = true -> Forall (fun tr : track => Forall full tr) trs /\ velocity_safe r tr2) ->
  exists pre es1 st1 es2 st2, run mem1 true (nth i at1 0) (None, None) (control_events pre ++ es1) st1 /\
    run mem2 true (nth i at2 0) (None, None) (control_events pre ++ es2) st2 /\ map (heard loud) es1 = map (heard loud) es2 /\
    map (heard loud) es1 = map (heard loud) (prescribed tr1 None None).
Proof.
  intros Hf Hn Hp E Hps H1 H2 Ht1 Ht2 Hne Hl. destruct (Hn i tr1 Ht1) as (tr2' & Ht2' & Hpl). rewrite Ht2' in Ht2. injection Ht2 as ->.
  assert (Hi : (i < length trs)%nat) by (eapply nth_error_lt; exact Ht1). pose proof (optimize_top b trs r E) as Hlen.
  assert (Hfree : loop_free tr1) by (rewrite Forall_forall in Hf; apply Hf; eapply nth_error_In; exact Ht1).
  destruct (track_heard loud mem1 a1 lp1 (mk_song ps trs) at1 (length trs) i tr1 tr1 H1) as (pre1 & es1 & st1 & Hc1 & Hr1 & He1); cbn [tracks parts]; try assumption; try reflexivity.
  - apply free_wfl; exact Hf.
  - intros El. destruct (Hl El) as [Hfu _]. split; [exact Hfu|]. intros x n1 mid n2 y Ex _ _ _ pc t k body Hin Ec _. exfalso. unfold loop_free in Hfree. rewrite Forall_forall in Hfree. eapply (Hfree pc); [|exact Ec]. rewrite Ex. apply in_app_iff. right. right. apply in_app_iff. left. exact Hin.
  - apply plays_free; exact Hfree.
  - assert (Hne2 : tr2 <> []) by (intros ->; inversion Hpl; subst; contradiction).
    destruct (track_heard loud mem2 a2 lp2 (mk_song ps r) at2 (length trs) i tr2 tr1 H2) as (pre2 & es2 & st2 & Hc2 & Hr2 & He2); cbn [tracks parts]; try assumption.
    + apply (optimize_wfl b); assumption.
    + eapply optimize_playable; eassumption.
    + intros El. destruct (Hl El) as [Hfu Hv]. split; [eapply optimize_full; eassumption|exact Hv].
    + exists pre1, es1, st1, es2, st2. split; [exact Hr1|]. split.
      * replace pre1 with pre2; [exact Hr2|]. destruct Hc1 as (A1 & A2 & A3), Hc2 as (B1 & B2 & B3). cbn [parts] in *.
        destruct (opens_a_part_true ps i) as ([|] & _ & Hiff); [intros p Hpp; apply (Hps p Hpp)| |].
        -- pose proof (proj1 Hiff eq_refl) as Hex. rewrite A1, B1 by exact Hex. reflexivity.
        -- assert (Hno : forall q, ~ In (i :: q) ps) by (intros q Hq; assert (false = true) by (apply Hiff; eauto); discriminate).
           destruct (existsb (fun p => existsb (Nat.eqb i) p) ps) eqn:Ex.
           ++ apply in_part_true in Ex. rewrite A2, B2 by assumption. reflexivity.
           ++ assert (Hnp : forall p, In p ps -> ~ In i p) by (intros p Hpp Hpi; assert (existsb (fun p => existsb (Nat.eqb i) p) ps = true) by (apply in_part_true; eauto); congruence).
              rewrite A3, B3 by exact Hnp. reflexivity.
      * split; [rewrite He1, He2; reflexivity|exact He1].
Qed.

(** ** Executable player, for concrete cases. *)
Fixpoint times (f : drv -> option (list event * drv)) (n : nat) (st : drv) : option (list event * drv) :=
  match n with
  | O => Some ([], st)
  | S n' => match f st with Some (es1, st1) => match times f n' st1 with Some (es2, st2) => Some (es1 ++ es2, st2) | None => None end | None => None end
  end.
Fixpoint exec (fuel : nat) (mem : Z -> option Z) (calls : bool) (a : Z) (st : drv) : option (list event * drv) :=
  match fuel with
  | O => None
  | S fuel' =>
      match fetch mem a with
      | None => None
      | Some (TEnd, _) => Some ([], st)
      | Some (TDuration d v, a') => exec fuel' mem calls a' (Some d, or_else v (snd st))
      | Some (TControl op ps, a') =>
          if op =? 0xef then
            match ps with
            | [lo; hi; n] =>
                if calls && (0 <? n) then
                  match times (exec fuel' mem false (lo + 256 * hi)) (Z.to_nat n) st with
                  | Some (es1, st1) => match exec fuel' mem true a' st1 with Some (es2, st2) => Some (es1 ++ es2, st2) | None => None end
                  | None => None
                  end
                else None
            | _ => None
            end
          else match exec fuel' mem calls a' st with Some (es, st') => Some (mk_event (TControl op ps) (fst st) (snd st) :: es, st') | None => None end
      | Some (t, a') => match exec fuel' mem calls a' st with Some (es, st') => Some (mk_event t (fst st) (snd st) :: es, st') | None => None end
      end
  end.
Lemma times_ok mem a f : (forall st es st', f st = Some (es, st') -> run mem false a st es st') ->
  forall n st es st', times f n st = Some (es, st') -> run_times mem n a st es st'.
Proof.
  intros Hf. induction n as [|n IH]; intros st es st' E; cbn [times] in E.
  - injection E as <- <-. constructor.
  - destruct (f st) as [[es1 st1]|] eqn:E1; [|discriminate]. destruct (times f n st1) as [[es2 st2]|] eqn:E2; [|discriminate]. injection E as <- <-. econstructor; eauto.
Qed.
Lemma exec_ok mem : forall fuel calls a st es st', exec fuel mem calls a st = Some (es, st') -> run mem calls a st es st'.
Proof.
  induction fuel as [|fuel IH]; intros calls a [dur vs] es st' E; cbn [exec] in E; [discriminate|]. destruct (fetch mem a) as [[t a']|] eqn:Ef; [|discriminate].
  assert (Hcmd : is_command t -> match exec fuel mem calls a' (dur, vs) with Some (es, st') => Some (mk_event t dur vs :: es, st') | None => None end = Some (es, st') -> run mem calls a (dur, vs) es st').
  { intros Hc E'. destruct (exec fuel mem calls a' (dur, vs)) as [[es2 st2]|] eqn:E2; [|discriminate]. injection E' as <- <-. eapply run_command; eauto. }
  cbn [fst snd] in E. destruct t as [|d v|n| | | |op ps]; try (apply Hcmd; [exact I|exact E]).
  - injection E as <- <-. eapply run_end; exact Ef.
  - eapply run_duration; [exact Ef|]. apply IH. exact E.
  - destruct (Z.eqb_spec op 0xef) as [->|Hop]; [|apply Hcmd; [exact Hop|exact E]].
    destruct ps as [|lo [|hi [|n [|]]]]; try discriminate E. destruct calls; [|discriminate E]. destruct (Z.ltb_spec 0 n) as [Hn|Hn]; [|discriminate E]. cbn [andb] in E.
    destruct (times _ _ _) as [[es1 st1]|] eqn:E1; [|discriminate]. destruct (exec fuel mem true a' st1) as [[es2 st2]|] eqn:E2; [|discriminate]. injection E as <- <-.
    eapply run_call; [exact Ef|exact Hn| |apply IH; exact E2]. eapply times_ok; [|exact E1]. intros; apply IH; assumption.
Qed.

(** ** A concrete song in ARAM. *)
Definition mem_of (base : Z) (bytes : list Z) (a : Z) : option Z := if base <=? a then nth_error bytes (Z.to_nat (a - base)) else None.
Definition holds_b (mem : Z -> option Z) (a w : Z) : bool :=
  match mem a, mem (a + 1) with Some x, Some y => (x =? w mod 256) && (y =? w / 256) && (0 <=? w) && (w <? 65536) | _, _ => false end.
Lemma holds_b_ok mem a w : holds_b mem a w = true -> holds mem a w.
Proof. unfold holds_b, holds. destruct (mem a); [|discriminate]. destruct (mem (a + 1)); [|discriminate]. intros H. rewrite !andb_true_iff in H. destruct H as [[[H1 H2] H3] H4]. apply Z.eqb_eq in H1, H2. apply Z.leb_le in H3. apply Z.ltb_lt in H4. subst. auto. Qed.
Definition operand_b (refs : list call_loop_ref) (j : nat) : bool := existsb (fun x => Nat.eqb j (ref_pos x) || Nat.eqb j (S (ref_pos x))) refs.
Definition track_b (mem : Z -> option Z) (at_ : list Z) (i : nat) (d : list Z * list call_loop_ref) : bool :=
  match nth_error at_ i with
  | None => false
  | Some a =>
      (match fst d with [] => a =? 0 | _ => true end) &&
      forallb (fun j => operand_b (snd d) j || match mem (a + Z.of_nat j) with Some x => x =? nth j (fst d) 0 | None => false end) (seq 0 (length (fst d))) &&
      forallb (fun x => match nth_error at_ (target_track x) with Some ta => holds_b mem (a + Z.of_nat (ref_pos x)) ta | None => false end) (snd d)
  end.
Lemma track_b_ok mem at_ i d : track_b mem at_ i d = true -> track_in mem at_ i (fst d) (snd d).
Proof.
  unfold track_b, track_in. destruct (nth_error at_ i) as [a|]; [|discriminate]. rewrite !andb_true_iff. intros [[H1 H2] H3]. exists a. split; [reflexivity|]. split; [intros E; rewrite E in H1; apply Z.eqb_eq; exact H1|]. split.
  - intros j Hj Hno. rewrite forallb_forall in H2. specialize (H2 j ltac:(apply in_seq; lia)). apply orb_true_iff in H2. destruct H2 as [H2|H2].
    + exfalso. apply Hno. unfold operand_b in H2. apply existsb_exists in H2. destruct H2 as (x & Hx & E). apply orb_true_iff in E. rewrite !Nat.eqb_eq in E. exists x. auto.
    + destruct (mem _); [|discriminate]. apply Z.eqb_eq in H2. subst. reflexivity.
  - intros x Hx. rewrite forallb_forall in H3. specialize (H3 x Hx). destruct (nth_error at_ (target_track x)) as [ta|]; [|discriminate]. exists ta. split; [reflexivity|]. apply holds_b_ok. exact H3.
Qed.
Definition song_b (mem : Z -> option Z) (a : Z) (s : song) (at_ : list Z) : bool :=
  holds_b mem a (a + 4) && holds_b mem (a + 2) 0 && Nat.eqb (length at_) (length (tracks s)) &&
  match nth_error (parts s) 0 with
  | None => false
  | Some part => forallb (fun k => holds_b mem (a + 4 + 2 * Z.of_nat k) (match nth_error part k with Some ti => nth ti at_ 0 | None => 0 end)) (seq 0 8)
  end &&
  forallb (fun i => match write_track s [] i [] with Ok d => track_b mem at_ i d | _ => false end) (seq 0 (length (tracks s))).
Lemma song_b_ok mem a s at_ : song_b mem a s at_ = true -> song_in mem a false s at_.
Proof.
  unfold song_b. rewrite !andb_true_iff. intros [[[[H1 H2] H3] H4] H5]. constructor; cbn [header_size].
  - apply holds_b_ok; exact H1.
  - apply holds_b_ok; exact H2.
  - apply Nat.eqb_eq; exact H3.
  - destruct (nth_error (parts s) 0) as [part|]; [|discriminate]. exists part. split; [reflexivity|]. intros k Hk. rewrite forallb_forall in H4. apply holds_b_ok. apply H4. apply in_seq. lia.
  - intros i Hi. rewrite forallb_forall in H5. specialize (H5 i ltac:(apply in_seq; lia)). destruct (write_track s [] i []) as [d| | |]; try discriminate. exists (fst d), (snd d). split; [destruct d; reflexivity|]. apply track_b_ok; exact H5.
Qed.
(** Bytes of a song whose first part has one track: header, part table, tracks with operands filled in. *)
Definition le (w : Z) : list Z := [w mod 256; w / 256].
Fixpoint patch (bs : list Z) (refs : list call_loop_ref) (at_ : list Z) : list Z :=
  match refs with
  | [] => bs
  | x :: refs' => patch (firstn (ref_pos x) bs ++ le (nth (target_track x) at_ 0) ++ skipn (ref_pos x + 2) bs) refs' at_
  end.
Definition song_bytes (a : Z) (s : song) (at_ : list Z) : list Z :=
  le (a + 4) ++ le 0 ++ le (nth 0 at_ 0) ++ repeat 0 14 ++
  flat_map (fun i => match write_track s [] i [] with Ok d => patch (fst d) (snd d) at_ | _ => [] end) (seq 0 (length (tracks s))).

(** A loud block between soft notes. *)
Definition vnote (k v : Z) : pcmd := mk_pcmd (Some 24) (Some v) (Some 7) (Note k).
Definition loud_block : track := map (fun k => vnote k 15) [0x81; 0x82; 0x83; 0x84].
Definition soft (k : Z) : pcmd := vnote k 3.
Definition dyn_track : track := [soft 0x90] ++ loud_block ++ [soft 0x91] ++ loud_block ++ [soft 0x92].
Definition dyn_result : list track := [[soft 0x90; ex_call 1 1; soft 0x91; ex_call 1 1; soft 0x92]; loud_block].
Lemma dyn_optimised b : optimize_call_loops b [dyn_track] 1 = Ok dyn_result. Proof. destruct b; vm_compute; reflexivity. Qed.
Definition dyn_at : list Z := [0xd014; 0xd02a].
Definition dyn_mem : Z -> option Z := mem_of 0xd000 (song_bytes 0xd000 (mk_song [[O]] dyn_result) dyn_at).
Lemma dyn_in : song_in dyn_mem 0xd000 false (mk_song [[O]] dyn_result) dyn_at.
Proof. apply song_b_ok. vm_compute. reflexivity. Qed.
Definition frame_first : list (Z * list Z) := [(0xfa, [0x19]); (0xe5, [0xc8]); (0xed, [0xc8])].
Lemma pc_plain_ok d v q k : 1 <= d <= 127 -> 1 <= v <= 15 -> 1 <= q <= 7 -> 0x80 <= k <= 0xc7 -> playable (mk_pcmd (Some d) (Some v) (Some q) (Note k)).
Proof. intros. cbn. split; [repeat split; cbn; try lia; unfold u8; lia|]. intros _. cbn. destruct (Z.ltb_spec 0 d); [discriminate|lia]. Qed.
Lemma pc_full_ok d v q k : 1 <= v <= 15 -> 1 <= q <= 7 -> full (mk_pcmd (Some d) (Some v) (Some q) (Note k)).
Proof. intros H1 H2 _. cbn. destruct (Z.ltb_spec 0 v); [|lia]. destruct (Z.ltb_spec 0 q); [|lia]. split; discriminate. Qed.
Lemma dyn_playable : Forall playable dyn_track. Proof. unfold dyn_track, loud_block, soft, vnote. cbn [map app]. repeat (constructor; [apply pc_plain_ok; lia|]). constructor. Qed.
Lemma dyn_full : Forall full dyn_track. Proof. unfold dyn_track, loud_block, soft, vnote. cbn [map app]. repeat (constructor; [apply pc_full_ok; lia|]). constructor. Qed.
Lemma velocity_changes : forall b, exists tr r mem at_ es st,
  loop_free tr /\ no_immediate_repeat tr /\ Forall playable tr /\ Forall full tr /\ optimize_call_loops b [tr] 1 = Ok r /\ song_in mem 0xd000 false (mk_song [[O]] r) at_ /\
  run mem true (nth 0 at_ 0) (None, None) (control_events [(0xfa, [0x19]); (0xe5, [0xc8]); (0xed, [0xc8])] ++ es) st /\
  map (heard true) es <> map (heard true) (prescribed tr None None).
Proof.
  intros b. destruct (exec 50 dyn_mem true 0xd014 (None, None)) as [[es st]|] eqn:E; [|exfalso; revert E; vm_compute; discriminate].
  exists dyn_track, dyn_result, dyn_mem, dyn_at, (skipn 3 es), st. split; [apply check_free_ok; reflexivity|]. split; [apply check_ok; vm_compute; reflexivity|]. split; [exact dyn_playable|]. split; [exact dyn_full|].
  split; [apply dyn_optimised|]. split; [exact dyn_in|]. pose proof (exec_ok _ _ _ _ _ _ _ E) as Hr. revert E Hr. generalize (exec_ok dyn_mem). intros _ E Hr.
  assert (Ees : es = control_events [(0xfa, [0x19]); (0xe5, [0xc8]); (0xed, [0xc8])] ++ skipn 3 es /\ map (heard true) (skipn 3 es) <> map (heard true) (prescribed dyn_track None None)).
  { revert E. vm_compute. intros E. injection E as <- <-. split; [reflexivity|discriminate]. }
  split; [rewrite <- (proj1 Ees); exact Hr|exact (proj2 Ees)].
Qed.

(** A song whose velocities are safe. *)
Definition swell : track := [vnote 0x81 9; vnote 0x82 11; vnote 0x83 13; vnote 0x84 15].
Definition safe_track : track := [vnote 0x90 15] ++ swell ++ [vnote 0x91 15] ++ swell ++ [vnote 0x92 15].
Definition safe_result : list track := [[vnote 0x90 15; ex_call 1 1; vnote 0x91 15; ex_call 1 1; vnote 0x92 15]; swell].
Definition safe_at1 : list Z := [0xd014].
Definition safe_at2 : list Z := [0xd014; 0xd02a].
Definition safe_mem1 : Z -> option Z := mem_of 0xd000 (song_bytes 0xd000 (mk_song [[O]] [safe_track]) safe_at1).
Definition safe_mem2 : Z -> option Z := mem_of 0xd000 (song_bytes 0xd000 (mk_song [[O]] safe_result) safe_at2).
Lemma safe_case b : Forall loop_free [safe_track] /\ keeps_music [safe_track] safe_result /\ Forall (Forall playable) [safe_track] /\ Forall (Forall full) [safe_track] /\
  optimize_call_loops b [safe_track] 1 = Ok safe_result /\ velocity_safe safe_result (nth 0 safe_result []) /\
  song_in safe_mem1 0xd000 false (mk_song [[O]] [safe_track]) safe_at1 /\ song_in safe_mem2 0xd000 false (mk_song [[O]] safe_result) safe_at2.
Proof.
  split; [constructor; [apply check_free_ok; reflexivity|constructor]|]. split; [apply keeps_b_ok; vm_compute; reflexivity|].
  split; [constructor; [|constructor]; unfold safe_track, swell, vnote; cbn [app]; repeat (constructor; [apply pc_plain_ok; lia|]); constructor|].
  split; [constructor; [|constructor]; unfold safe_track, swell, vnote; cbn [app]; repeat (constructor; [apply pc_full_ok; lia|]); constructor|].
  split; [destruct b; vm_compute; reflexivity|]. split.
  - intros x n1 mid n2 y E Hn _ _ pc t k body Hin Ec Eb. right. assert (Hb : body = swell).
    { assert (Hp : In pc (nth 0 safe_result [])) by (rewrite E; apply in_app_iff; right; right; apply in_app_iff; left; exact Hin). cbn in Hp. repeat (destruct Hp as [<-|Hp]; [try discriminate Ec; injection Ec as <- <-; cbn in Eb; congruence|]). destruct Hp. }
    subst body. assert (Hp : In n1 (nth 0 safe_result [])) by (rewrite E; apply in_app_iff; right; left; reflexivity). cbn in Hp.
    repeat (destruct Hp as [<-|Hp]; [try reflexivity; exfalso; apply Hn; reflexivity|]). destruct Hp.
  - split; apply song_b_ok; vm_compute; reflexivity.
Qed.
Lemma track_heard_shape loud mem a lp s at_ n i tr out :
  song_in mem a lp s at_ -> song_shape n s -> Forall (Forall playable) (tracks s) ->
  (loud = true -> Forall (Forall full) (tracks s) /\ velocity_safe (tracks s) tr) ->
  (i < n)%nat -> nth_error (tracks s) i = Some tr -> tr <> [] -> plays_as (tracks s) tr out ->
  exists pre es st, frame_cmds s i pre /\ run mem true (nth i at_ 0) (None, None) (control_events pre ++ es) st /\
    map (heard loud) es = map (heard loud) (prescribed out None None).
Proof. intros Hs (H1 & H2 & H3) Hp Hl. apply (track_heard loud mem a lp s at_ n); assumption. Qed.
Lemma heard_timing mem a lp s at_ n i tr out :
  song_in mem a lp s at_ -> song_shape n s -> Forall (Forall playable) (tracks s) ->
  (i < n)%nat -> nth_error (tracks s) i = Some tr -> tr <> [] -> plays_as (tracks s) tr out ->
  exists pre es st, frame_cmds s i pre /\ run mem true (nth i at_ 0) (None, None) (control_events pre ++ es) st /\
    map (heard false) es = map (heard false) (prescribed out None None).
Proof. intros. eapply track_heard_shape; try eassumption. discriminate. Qed.
Lemma heard_loud mem a lp s at_ n i tr out :
  song_in mem a lp s at_ -> song_shape n s -> Forall (Forall playable) (tracks s) -> Forall (Forall full) (tracks s) -> velocity_safe (tracks s) tr ->
  (i < n)%nat -> nth_error (tracks s) i = Some tr -> tr <> [] -> plays_as (tracks s) tr out ->
  exists pre es st, frame_cmds s i pre /\ run mem true (nth i at_ 0) (None, None) (control_events pre ++ es) st /\
    map (heard true) es = map (heard true) (prescribed out None None).
Proof. intros. eapply track_heard_shape; try eassumption. auto. Qed.
Lemma same_timing b trs r ps mem1 a1 lp1 at1 mem2 a2 lp2 at2 i tr :
  Forall loop_free trs -> keeps_music trs r -> Forall (Forall playable) trs -> optimize_call_loops b trs (length trs) = Ok r ->
  (forall p, In p ps -> p <> [] /\ Forall (fun t => (t < length trs)%nat) p) ->
  song_in mem1 a1 lp1 (mk_song ps trs) at1 -> song_in mem2 a2 lp2 (mk_song ps r) at2 ->
  nth_error trs i = Some tr -> tr <> [] ->
  exists pre es1 st1 es2 st2, run mem1 true (nth i at1 0) (None, None) (control_events pre ++ es1) st1 /\
    run mem2 true (nth i at2 0) (None, None) (control_events pre ++ es2) st2 /\ map (heard false) es1 = map (heard false) es2 /\
    map (heard false) es1 = map (heard false) (prescribed tr None None).
Proof.
  intros Hf Hn Hp E Hps H1 H2 Ht Hne. destruct (Hn i tr Ht) as (tr2 & Ht2 & _).
  eapply (heard_same false b trs r ps); try eassumption. discriminate.
Qed.
