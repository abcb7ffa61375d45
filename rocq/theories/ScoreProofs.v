(** ScoreProofs.v: songs in ARAM are played as written (C67). *)
From Coq Require Import ZArith List Bool Lia ZifyBool ZifyNat String.
From Verif Require Import Base ProofLib F32 Messages Command Track SeqTree Song Paths Manifest Midi Json Cli Rom SpecMidi SpecNotes SpecVoices SpecVoice SpecLoop
  SpecNspc SpecRom SpecBank SpecAram SpecPlayback SpecFile SpecConsole SpecScore CodecProofs FrameProofs OptExpand AramProofs AramMore RomBanks RomFinal FilePlay ConsoleProofs.
Ltac Zify.zify_post_hook ::= Z.div_mod_to_equations.
Open Scope Z_scope.
Open Scope list_scope.

(** ** Reading a stored stream *)
Lemma counts_small k n : nth_error param_counts k = Some n -> (n <= 3)%nat.
Proof.
  intros H. assert (HF : Forall (fun n => (n <= 3)%nat) param_counts) by (repeat constructor). rewrite Forall_forall in HF. apply HF. eapply nth_error_In, H.
Qed.
Lemma fetch_decode mem a bs t r : stored mem a bs -> decode_token bs = Some (t, r) -> t = TEnd \/ r <> [] ->
  exists h, bs = h ++ r /\ fetch mem a = Some (t, a + Z.of_nat (length h)) /\ stored mem (a + Z.of_nat (length h)) r.
Proof.
  intros Hst Hd Hr.
  assert (G : forall h, bs = h ++ r -> (length h <= 4)%nat -> (forall z, decode_token (h ++ z) = Some (t, z)) ->
    exists h, bs = h ++ r /\ fetch mem a = Some (t, a + Z.of_nat (length h)) /\ stored mem (a + Z.of_nat (length h)) r).
  { intros h Eh Hl Hz. exists h. split; [exact Eh|]. rewrite Eh in Hst. apply stored_app in Hst. destruct Hst as [H1 H2]. split; [|exact H2]. now apply fetch_stored. }
  destruct bs as [|b bs]; [discriminate|]. cbn [decode_token] in Hd.
  destruct (b =? 0) eqn:E0; [injection Hd as <- <-; apply (G [b]); [reflexivity|cbn; lia|intros z; cbn [app decode_token]; now rewrite E0]|].
  destruct (b <? 0x80) eqn:E1.
  { destruct bs as [|v bs]; [injection Hd as <- <-; destruct Hr as [Hr|Hr]; [discriminate|now destruct Hr]|].
    destruct (v <? 0x80) eqn:E2; injection Hd as <- <-; [apply (G [b; v]); [reflexivity|cbn; lia|intros z; cbn [app decode_token]; now rewrite E0, E1, E2]|].
    exists [b]. split; [reflexivity|]. change (b :: v :: bs) with ([b; v] ++ bs) in Hst. pose proof Hst as Hst2. apply stored_app in Hst. destruct Hst as [H1 _]. split.
    - unfold fetch. destruct (read_stored mem [b; v] a 4 H1 ltac:(cbn; lia)) as [z ->]. cbn [app decode_token]. rewrite E0, E1, E2. cbn [length]. do 3 f_equal. lia.
    - change ([b; v] ++ bs) with ([b] ++ v :: bs) in Hst2. apply stored_app in Hst2. apply Hst2. }
  destruct (b <? 0xc8) eqn:E2; [injection Hd as <- <-; apply (G [b]); [reflexivity|cbn; lia|intros z; cbn [app decode_token]; now rewrite E0, E1, E2]|].
  destruct (b =? 0xc8) eqn:E3; [injection Hd as <- <-; apply (G [b]); [reflexivity|cbn; lia|intros z; cbn [app decode_token]; now rewrite E0, E1, E2, E3]|].
  destruct (b =? 0xc9) eqn:E4; [injection Hd as <- <-; apply (G [b]); [reflexivity|cbn; lia|intros z; cbn [app decode_token]; now rewrite E0, E1, E2, E3, E4]|].
  destruct (b <? 0xe0) eqn:E5; [injection Hd as <- <-; apply (G [b]); [reflexivity|cbn; lia|intros z; cbn [app decode_token]; now rewrite E0, E1, E2, E3, E4, E5]|].
  destruct (nth_error param_counts (Z.to_nat (b - 0xe0))) as [n|] eqn:E6; [|discriminate]. destruct (Nat.leb n (length bs)) eqn:E7; [|discriminate].
  injection Hd as <- <-. apply Nat.leb_le in E7. pose proof (counts_small _ _ E6) as Hn. apply (G (b :: firstn n bs)).
  - cbn [app]. now rewrite firstn_skipn.
  - cbn [length]. rewrite firstn_length_le by exact E7. lia.
  - intros z. cbn [app decode_token]. rewrite E0, E1, E2, E3, E4, E5, E6. rewrite app_length, firstn_length_le by exact E7.
    replace (Nat.leb n (n + length z)) with true by (symmetry; apply Nat.leb_le; lia).
    rewrite firstn_app, skipn_app, firstn_length_le by exact E7. rewrite Nat.sub_diag. cbn [firstn skipn].
    rewrite firstn_firstn, Nat.min_id, app_nil_r. rewrite skipn_all2 by (rewrite firstn_length_le by exact E7; lia). reflexivity.
Qed.
Lemma play_nonempty fuel bs dur vs x : play fuel bs dur vs = Some x -> bs <> [].
Proof. destruct fuel; [discriminate|]. intros H ->. discriminate. Qed.
Lemma play_run mem fuel : forall bs dur vs es rest a, play fuel bs dur vs = Some (es, rest) -> stored mem a bs ->
  Forall (fun e => is_command (ev_token e)) es -> exists st, run mem true a (dur, vs) es st.
Proof.
  induction fuel as [|fuel IH]; intros bs dur vs es rest a H Hst Hc; [discriminate|]. cbn [play] in H.
  destruct (decode_token bs) as [[t r]|] eqn:Ed; [|discriminate].
  destruct t as [|d v|n| | |n|op ps].
  - injection H as <- <-. destruct (fetch_decode mem a bs _ r Hst Ed (or_introl eq_refl)) as (h & _ & Hf & _). eexists. eapply run_end, Hf.
  - destruct (fetch_decode mem a bs _ r Hst Ed) as (h & _ & Hf & Hst'); [right; destruct v; eapply play_nonempty, H|].
    assert (Hp : play fuel r (Some d) (or_else v vs) = Some (es, rest)) by (destruct v; exact H).
    destruct (IH _ _ _ _ _ _ Hp Hst' Hc) as [st Hrun]. exists st. eapply run_duration; eassumption.
  - destruct (play fuel r dur vs) as [[es' r']|] eqn:Ep; [|discriminate]. injection H as <- <-. inversion Hc as [|? ? H1 H2]; subst.
    destruct (fetch_decode mem a bs _ r Hst Ed) as (h & _ & Hf & Hst'); [right; eapply play_nonempty, Ep|]. destruct (IH _ _ _ _ _ _ Ep Hst' H2) as [st Hrun]. exists st. eapply run_command; eassumption.
  - destruct (play fuel r dur vs) as [[es' r']|] eqn:Ep; [|discriminate]. injection H as <- <-. inversion Hc as [|? ? H1 H2]; subst.
    destruct (fetch_decode mem a bs _ r Hst Ed) as (h & _ & Hf & Hst'); [right; eapply play_nonempty, Ep|]. destruct (IH _ _ _ _ _ _ Ep Hst' H2) as [st Hrun]. exists st. eapply run_command; eassumption.
  - destruct (play fuel r dur vs) as [[es' r']|] eqn:Ep; [|discriminate]. injection H as <- <-. inversion Hc as [|? ? H1 H2]; subst.
    destruct (fetch_decode mem a bs _ r Hst Ed) as (h & _ & Hf & Hst'); [right; eapply play_nonempty, Ep|]. destruct (IH _ _ _ _ _ _ Ep Hst' H2) as [st Hrun]. exists st. eapply run_command; eassumption.
  - destruct (play fuel r dur vs) as [[es' r']|] eqn:Ep; [|discriminate]. injection H as <- <-. inversion Hc as [|? ? H1 H2]; subst.
    destruct (fetch_decode mem a bs _ r Hst Ed) as (h & _ & Hf & Hst'); [right; eapply play_nonempty, Ep|]. destruct (IH _ _ _ _ _ _ Ep Hst' H2) as [st Hrun]. exists st. eapply run_command; eassumption.
  - destruct (play fuel r dur vs) as [[es' r']|] eqn:Ep; [|discriminate]. injection H as <- <-. inversion Hc as [|? ? H1 H2]; subst.
    destruct (fetch_decode mem a bs _ r Hst Ed) as (h & _ & Hf & Hst'); [right; eapply play_nonempty, Ep|]. destruct (IH _ _ _ _ _ _ Ep Hst' H2) as [st Hrun]. exists st. eapply run_command; eassumption.
Qed.

(** ** Tracks without loop calls *)
Lemma prescribed_commands l : loop_free l -> forall dur vs, Forall (fun e => is_command (ev_token e)) (prescribed l dur vs).
Proof.
  induction 1 as [|pc l Hpc H IH]; intros dur vs; cbn [prescribed]; constructor; [|apply IH]. cbn [ev_token].
  apply is_command_token. exact Hpc.
Qed.
Lemma free_calls l : loop_free l -> call_loops_of l = [].
Proof. induction 1 as [|pc l Hpc H IH]; [reflexivity|]. unfold call_loops_of in *. cbn [flat_map]. rewrite IH, app_nil_r. destruct (cmd pc) eqn:E; try reflexivity. exfalso. eapply Hpc. reflexivity. Qed.
Lemma plain_track mem a lp s at_ i tr : song_in mem a lp s at_ -> (forall p, In p (parts s) -> p <> []) ->
  nth_error (tracks s) i = Some tr -> tr <> [] -> loop_free tr -> well_formed tr -> mem 0 = None ->
  nth i at_ 0 <> 0 /\ exists pre st, frame_cmds s i pre /\ run mem true (nth i at_ 0) (None, None) (control_events pre ++ prescribed tr None None) st.
Proof.
  intros Hs Hp Htr Hne Hfree Hwf H0. destruct (si_tracks _ _ _ _ _ Hs i) as (data & refs & Hw & a' & Ha & _ & Hbytes & _); [eapply nth_error_lt; exact Htr|].
  destruct (framed_plays s [] i [] tr [] Htr Hne (no_empty_part _ i Hp) Hwf) as (pre & bytes & loops' & Hw' & Hplay & F1 & F2 & F3). rewrite Hw in Hw'. injection Hw' as Hd El. cbn [app] in Hd. subst bytes.
  assert (Erefs : refs = []).
  { destruct (write_track_frame s [] i [] tr Htr Hne Hp) as (pre' & l2 & Hw2 & Hl & _). rewrite Hw in Hw2. injection Hw2 as _ E. rewrite E, Hl. unfold track_write.
    rewrite track_write_from_eq. cbn [snd app]. apply length_zero_iff_nil. rewrite list_refs_length, free_calls by exact Hfree. reflexivity. }
  subst refs. rewrite (nth_error_nth _ _ 0 Ha).
  assert (Hst : stored mem a' data).
  { intros j b E. rewrite (Hbytes j (nth_error_lt _ _ _ E)); [| subst loops'; intros Hop; destruct Hop as (x & Hx & _); exact Hx]. f_equal. apply nth_error_nth. exact E. }
  rewrite app_nil_r in Hplay. split.
  - intros E. subst a'. pose proof (play_nonempty _ _ _ _ _ Hplay) as Hnil. destruct data as [|b data]; [now destruct Hnil|]. pose proof (Hst 0%nat b eq_refl) as Hb. cbn in Hb. congruence.
  - exists pre. unfold play_stream in Hplay. eapply play_run in Hplay; [|exact Hst|].
    + destruct Hplay as [st Hrun]. exists st. split; [split; [exact F1|split; [exact F2|exact F3]]|exact Hrun].
    + apply Forall_app. split; [|apply prescribed_commands; exact Hfree]. 
      assert (Hpre : pre = [] \/ pre = [(0xed, [0xc8])] \/ pre = [(0xfa, [0x19]); (0xe5, [0xc8]); (0xed, [0xc8])]).
      { destruct (existsb (fun p => match p with q :: _ => Nat.eqb i q | [] => false end) (parts s)) eqn:E1.
        - apply existsb_exists in E1. destruct E1 as ([|q p] & Hin & E); [discriminate|]. apply Nat.eqb_eq in E. subst q. right. right. apply F1. eauto.
        - assert (Hno : forall q, ~ In (i :: q) (parts s)).
          { intros q Hin. assert (X : existsb (fun p => match p with q :: _ => Nat.eqb i q | [] => false end) (parts s) = true) by (apply existsb_exists; exists (i :: q); split; [exact Hin|apply Nat.eqb_refl]). congruence. }
          destruct (existsb (fun p => existsb (Nat.eqb i) p) (parts s)) eqn:E2.
          + right. left. apply F2; [exact Hno|]. apply existsb_exists in E2. destruct E2 as (p & Hin & E). apply existsb_exists in E. destruct E as (q & Hq & E). apply Nat.eqb_eq in E. subst q. eauto.
          + left. apply F3. intros p Hin Hi. assert (X : existsb (fun p => existsb (Nat.eqb i) p) (parts s) = true).
            { apply existsb_exists. exists p. split; [exact Hin|]. apply existsb_exists. exists i. split; [exact Hi|apply Nat.eqb_refl]. } congruence. }
      destruct Hpre as [-> |[-> | ->]]; repeat constructor; cbn; lia.
Qed.

(** ** Tracks with loop calls *)
Lemma calls_plays s tr : song_calls s -> In tr (tracks s) -> Forall playable tr -> plays_as (tracks s) tr (exp (tracks s) tr).
Proof.
  intros Hc Hin Hpl.
  assert (Hall : forall pc t k, In pc tr -> cmd pc = CallLoop t k -> exists body, nth_error (tracks s) t = Some body /\ loop_free body).
  { intros pc t k H1 H2. destruct (Hc tr pc t k Hin H1 H2) as (body & B1 & _ & B3 & _). eauto. }
  clear Hin. induction Hpl as [|pc l Hp _ IH]; cbn [exp flat_map]; [constructor|]. fold (exp (tracks s) l).
  specialize (IH (fun pc t k H => Hall pc t k (or_intror H))).
  destruct (cmd pc) as [| | | | | | | | | | | | | | | | | |t k| | | | | | | | | | |] eqn:E; try (rewrite exp1_plain by congruence; constructor; [congruence|exact IH]).
  destruct (Hall pc t k (or_introl eq_refl) E) as (body & Hb & Hf). unfold playable in Hp. rewrite E in Hp. unfold exp1. rewrite E.
  pose proof (nth_error_nth _ _ [] Hb) as En. unfold track in En |- *. rewrite En. eapply pa_call; [exact E|lia|exact Hb| |exact IH]. now apply plays_free.
Qed.
Lemma called_track loud mem a lp s at_ part i tr : song_in mem a lp s at_ -> song_parts s part -> song_calls s ->
  Forall (fun tr : track => Forall playable tr) (tracks s) -> (loud = true -> Forall (fun tr : track => Forall full tr) (tracks s) /\ velocity_safe (tracks s) tr) ->
  nth_error (tracks s) i = Some tr -> tr <> [] -> mem 0 = None ->
  nth i at_ 0 <> 0 /\ exists pre es st, frame_cmds s i pre /\ run mem true (nth i at_ 0) (None, None) (control_events pre ++ es) st /\
    map (heard loud) es = map (heard loud) (prescribed (exp (tracks s) tr) None None).
Proof.
  intros Hs [_ Hparts] Hcalls Hpl Hloud Htr Hne H0.
  assert (Hp : forall p, In p (parts s) -> p <> []) by (intros p Hin; apply (Hparts p Hin)).
  destruct (song_stored mem a lp s at_ i tr Hs Hp Htr Hne) as (pre & Hfr & Hst). destruct (frame_cases s i pre Hp Hfr) as (pre_cmds & Hfc & Hcase).
  split.
  { intros E. rewrite E in Hst. destruct (pre ++ lk_bytes at_ tr 0xff None ++ [0]) as [|x l] eqn:El; [destruct pre; [destruct (lk_bytes at_ tr 255 None)|]; discriminate|].
    pose proof (Hst 0%nat x eq_refl) as Hb. cbn in Hb. congruence. }
  apply stored_app in Hst. destruct Hst as [Hst1 Hst2]. assert (Htin : In tr (tracks s)) by (eapply nth_error_In; exact Htr).
  assert (Hplt : Forall playable tr) by (rewrite Forall_forall in Hpl; apply Hpl; exact Htin).
  assert (Hbody : forall pc t k, In pc tr -> cmd pc = CallLoop t k -> body_at loud mem at_ (tracks s) t).
  { intros pc t k Hin E. destruct (Hcalls tr pc t k Htin Hin E) as (body & Hb & Hbne & Hbf & Hbp).
    destruct (song_stored mem a lp s at_ t _ Hs Hp Hb Hbne) as (pre' & (_ & _ & Hfr') & Hst'). rewrite (Hfr' Hbp) in Hst'.
    pose proof (nth_error_nth _ _ [] Hb) as En. unfold body_at. unfold track in En |- *. rewrite En. split; [exact Hbf|].
    split; [rewrite Forall_forall in Hpl; apply Hpl; eapply nth_error_In; exact Hb|]. split; [|exact Hst'].
    intros El. destruct (Hloud El) as [Hf _]. rewrite Forall_forall in Hf. apply Hf. eapply nth_error_In; exact Hb. }
  assert (Hfull : loud = true -> Forall full tr) by (intros El; destruct (Hloud El) as [Hf _]; rewrite Forall_forall in Hf; apply Hf; exact Htin).
  destruct (run_top loud mem at_ (tracks s) tr Hplt Hfull Hbody (nth i at_ 0 + Z.of_nat (length pre)) 0xff None None None (timed_any None) ltac:(intros qv E; discriminate)
    ltac:(intros _ mid n2 y b _ _ _ E; discriminate) (fun El => proj2 (Hloud El))) as (es & st & Hrun & Hh); [|exact Hst2|].
  { intros t. destruct (Nat.lt_ge_cases t (length (tracks s))) as [Ht|Ht]; [left; apply nth_error_nth'; exact Ht|right; exact Ht]. }
  exists pre_cmds, es, st. split; [exact Hfc|]. split; [eapply run_controls; eassumption|]. rewrite Hh.
  symmetry. apply heard_prescribed; [| |intros qv E; discriminate].
  - apply exp_forall.
    + intros pc Hin Hnc. apply playable_plain; [exact Hnc|]. rewrite Forall_forall in Hplt. apply Hplt, Hin.
    + intros pc t k Hin E. destruct (Hbody pc t k Hin E) as (Hf & Hpb & _). unfold loop_free in Hf. rewrite Forall_forall in Hf, Hpb |- *. intros x Hx. apply playable_plain; [exact (Hf x Hx)|exact (Hpb x Hx)].
  - intros El. apply exp_forall.
    + intros pc Hin _. specialize (Hfull El). rewrite Forall_forall in Hfull. apply Hfull, Hin.
    + intros pc t k Hin E. destruct (Hbody pc t k Hin E) as (_ & _ & Hf & _). apply Hf, El.
Qed.

(** ** Songs *)
Lemma choose8 (P : nat -> list event -> Prop) : forall n, (forall k, (k < n)%nat -> exists es, P k es) -> exists ess, length ess = n /\ forall k es, nth_error ess k = Some es -> P k es.
Proof.
  induction n as [|n IH]; intros H; [exists []; split; [reflexivity|]; intros [|k] es E; discriminate|].
  destruct IH as (ess & Hl & He); [intros k Hk; apply H; lia|]. destruct (H n ltac:(lia)) as [es Hes]. exists (ess ++ [es]). split; [rewrite app_length; cbn; lia|].
  intros k es' E. destruct (Nat.lt_ge_cases k (length ess)) as [Hk|Hk]; [rewrite nth_error_app1 in E by exact Hk; now apply He|].
  rewrite nth_error_app2 in E by exact Hk. destruct (k - length ess)%nat as [|d] eqn:Ed; cbn in E; [|destruct d; discriminate]. injection E as <-. replace k with n by lia. exact Hes.
Qed.
Lemma part_plays voice mem a lp s at_ part : song_in mem a lp s at_ -> song_parts s part ->
  (forall i tr, In i part -> nth_error (tracks s) i = Some tr -> exists es, voice i es /\ voice_plays mem (nth i at_ 0) es) ->
  exists ess, song_plays mem a ess /\ plays_part voice part ess.
Proof.
  intros Hs [Hpart Hparts] Hv. destruct (si_part _ _ _ _ _ Hs) as (part' & Hp' & Hw). rewrite Hpart in Hp'. injection Hp' as <-.
  destruct (choose8 (fun k es => (k < 8)%nat /\ voice_plays mem (match nth_error part k with Some ti => nth ti at_ 0 | None => 0 end) es /\
     match nth_error part k with Some i => voice i es | None => es = [] end) 8) as (ess & Hl & He).
  { intros k Hk. destruct (nth_error part k) as [i|] eqn:Ei; [|exists []; repeat split; exact Hk].
    pose proof (nth_error_In _ _ Ei) as Hi. destruct (Hparts part (nth_error_In _ _ Hpart)) as [_ HF]. rewrite Forall_forall in HF. specialize (HF i Hi).
    destruct (nth_error (tracks s) i) as [tr|] eqn:Et; [|apply nth_error_None in Et; lia]. destruct (Hv i tr Hi Et) as (es & H1 & H2). exists es. auto. }
  exists ess. split.
  - exists (a + header_size lp). split; [apply (si_header _ _ _ _ _ Hs)|]. split; [exact Hl|]. intros k es E. destruct (He k es E) as (Hk & Hpl & _).
    eexists. split; [apply (Hw k Hk)|exact Hpl].
  - split; [exact Hl|]. intros k es E. apply (He k es E).
Qed.
Lemma empty_track mem a lp s at_ i : song_in mem a lp s at_ -> nth_error (tracks s) i = Some [] -> nth i at_ 0 = 0.
Proof.
  intros Hs Ht. destruct (si_tracks _ _ _ _ _ Hs i) as (data & refs & Hw & a' & Ha & Hd & _); [eapply nth_error_lt; exact Ht|].
  rewrite write_track_empty in Hw by exact Ht. injection Hw as <- <-. rewrite (Hd eq_refl) in Ha. now apply nth_error_nth with (d := 0) in Ha.
Qed.
Lemma exact_song mem a lp s at_ part : song_in mem a lp s at_ -> mem 0 = None -> song_parts s part ->
  Forall (fun i => forall tr, nth_error (tracks s) i = Some tr -> loop_free tr /\ well_formed tr) part ->
  exists ess, song_plays mem a ess /\ plays_part (plays_exactly s) part ess.
Proof.
  intros Hs H0 Hp HF. apply (part_plays (plays_exactly s) mem a lp s at_ part Hs Hp). intros i tr Hi Ht. rewrite Forall_forall in HF. destruct (HF i Hi tr Ht) as [Hf Hwf].
  destruct tr as [|pc tr]; [exists []; split; [exists []; auto|]; unfold voice_plays; now rewrite (empty_track _ _ _ _ _ _ Hs Ht)|].
  destruct (plain_track mem a lp s at_ i _ Hs (fun p H => proj1 (proj2 Hp p H)) Ht ltac:(discriminate) Hf Hwf H0) as (Hnz & pre & st & Hfr & Hrun).
  eexists. split; [exists (pc :: tr); split; [exact Ht|]; right; split; [discriminate|]; exists pre; split; [exact Hfr|reflexivity]|].
  unfold voice_plays. replace (nth i at_ 0 =? 0) with false by lia. eauto.
Qed.
Lemma looped_song loud mem a lp s at_ part : song_in mem a lp s at_ -> mem 0 = None -> song_parts s part -> song_calls s ->
  Forall (fun tr : track => Forall playable tr) (tracks s) ->
  (loud = true -> Forall (fun tr : track => Forall full tr) (tracks s) /\ Forall (fun i => forall tr, nth_error (tracks s) i = Some tr -> velocity_safe (tracks s) tr) part) ->
  exists ess, song_plays mem a ess /\ plays_part (plays_track loud s) part ess.
Proof.
  intros Hs H0 Hp Hc Hpl Hloud. apply (part_plays (plays_track loud s) mem a lp s at_ part Hs Hp). intros i tr Hi Ht.
  destruct tr as [|pc tr]; [exists []; split; [exists []; auto|]; unfold voice_plays; now rewrite (empty_track _ _ _ _ _ _ Hs Ht)|].
  assert (Hloud' : loud = true -> Forall (fun tr : track => Forall full tr) (tracks s) /\ velocity_safe (tracks s) (pc :: tr)).
  { intros El. destruct (Hloud El) as [H1 H2]. rewrite Forall_forall in H2. split; [exact H1|]. exact (H2 i Hi _ Ht). }
  destruct (called_track loud mem a lp s at_ part i _ Hs Hp Hc Hpl Hloud' Ht ltac:(discriminate) H0) as (Hnz & pre & es & st & Hfr & Hrun & Hh).
  eexists. split; [exists (pc :: tr); split; [exact Ht|]; right; split; [discriminate|]; exists pre, (exp (tracks s) (pc :: tr)), es; split; [exact Hfr|]; split;
    [apply calls_plays; [exact Hc|eapply nth_error_In; exact Ht|rewrite Forall_forall in Hpl; apply Hpl; eapply nth_error_In; exact Ht]|split; [reflexivity|exact Hh]]|].
  unfold voice_plays. replace (nth i at_ 0 =? 0) with false by lia. eauto.
Qed.

(** ** Out of the ROM *)
Definition json_name (p : path) : Prop := extension p <> Some "mid"%string.
Lemma converter_json b w order opt p tf : json_name p -> converter b w order opt p tf = from_json (json_file w p).
Proof. unfold json_name, converter. intros H. destruct (extension p) as [e|]; [|reflexivity]. destruct (e =? "mid")%string eqn:E; [|reflexivity]. apply String.eqb_eq in E. subst e. now destruct H. Qed.
Lemma rom_song b verbose conv m Ls sss r openable n r' k bk L j sd p s :
  banks_fit b conv 0 0 m Ls sss -> is_image r -> Forall (layout_ok r) Ls -> ForallOrdPairs independent Ls ->
  rom_write b verbose m r openable (map lo_addr Ls) conv (Wrote n) = (Ok tt, r') -> (length r <= n)%nat ->
  nth_error m k = Some bk -> nth_error Ls k = Some L -> nth_error (songs bk) j = Some sd -> input sd = Some p -> conv p (tempo_factor sd) = Ok s ->
  exists a at_, holds (aram r' (lo_blocks L)) (0xd000 + 2 * Z.of_nat (count_songs (firstn k m) + j)) a /\ song_in (aram r' (lo_blocks L)) a (loops sd) s at_.
Proof.
  intros Hfit Hr HLs HI Hw Hn Hbk HL Hsd Hp Hs'. apply good_write in Hw; [|exact Hn]. destruct Hw as [Hw _].
  destruct (fit_nth _ _ _ _ _ _ _ Hfit k bk L Hbk HL) as (ss & ls & Hss & Hld).
  destruct (loaded_nth _ _ _ _ _ Hld j sd Hsd) as (s' & Hs & Hconv). rewrite Hp, Hs' in Hconv. injection Hconv as <-.
  destruct (banks_read _ _ _ _ _ _ _ _ Hfit Hr HLs HI Hw) as [_ Hread]. destruct (Hread k bk L ss Hbk HL Hss) as (fa & _ & [B1 B2 _]).
  destruct (B2 j sd s Hsd Hs) as (a & at_ & Ha & _ & Hin). exists a, at_. split; [exact Ha|exact Hin].
Qed.
Lemma json_slot b verbose opt w order m Ls sss r openable n r' k bk L j sd p s :
  banks_fit b (converter b w order opt) 0 0 m Ls sss -> is_image r -> Forall (layout_ok r) Ls -> ForallOrdPairs independent Ls ->
  rom_write b verbose m r openable (map lo_addr Ls) (converter b w order opt) (Wrote n) = (Ok tt, r') -> (length r <= n)%nat ->
  nth_error m k = Some bk -> nth_error Ls k = Some L -> nth_error (songs bk) j = Some sd -> input sd = Some p -> json_name p -> from_json (json_file w p) = Ok s ->
  exists a at_, holds (aram r' (lo_blocks L)) (0xd000 + 2 * Z.of_nat (count_songs (firstn k m) + j)) a /\ song_in (aram r' (lo_blocks L)) a (loops sd) s at_ /\
    (if loops sd then starts_again (aram r' (lo_blocks L)) a else stops (aram r' (lo_blocks L)) a).
Proof.
  intros Hfit Hr HLs HI Hw Hn Hbk HL Hsd Hp Hj Hs. rewrite <- (converter_json b w order opt p (tempo_factor sd) Hj) in Hs.
  destruct (rom_song _ _ _ _ _ _ _ _ _ _ _ _ _ _ _ _ _ Hfit Hr HLs HI Hw Hn Hbk HL Hsd Hp Hs) as (a & at_ & Ha & Hin). exists a, at_. split; [exact Ha|]. split; [exact Hin|].
  pose proof (si_after _ _ _ _ _ Hin) as Haf. destruct (loops sd); unfold starts_again, stops; tauto.
Qed.
Lemma json_exact b verbose opt w order m Ls sss r openable n r' k bk L j sd p s part :
  banks_fit b (converter b w order opt) 0 0 m Ls sss -> is_image r -> Forall (layout_ok r) Ls -> ForallOrdPairs independent Ls ->
  rom_write b verbose m r openable (map lo_addr Ls) (converter b w order opt) (Wrote n) = (Ok tt, r') -> (length r <= n)%nat ->
  nth_error m k = Some bk -> nth_error Ls k = Some L -> zero_free L -> nth_error (songs bk) j = Some sd -> input sd = Some p -> extension p <> Some "mid"%string ->
  from_json (json_file w p) = Ok s -> song_parts s part ->
  Forall (fun i => forall tr, nth_error (tracks s) i = Some tr -> loop_free tr /\ well_formed tr) part ->
  exists a ess, holds (aram r' (lo_blocks L)) (0xd000 + 2 * Z.of_nat (count_songs (firstn k m) + j)) a /\
    (if loops sd then starts_again (aram r' (lo_blocks L)) a else stops (aram r' (lo_blocks L)) a) /\
    song_plays (aram r' (lo_blocks L)) a ess /\ plays_part (plays_exactly s) part ess.
Proof.
  intros Hfit Hr HLs HI Hw Hn Hbk HL Hz Hsd Hp Hj Hs Hpart HF.
  destruct (json_slot _ _ _ _ _ _ _ _ _ _ _ _ _ _ _ _ _ _ _ Hfit Hr HLs HI Hw Hn Hbk HL Hsd Hp Hj Hs) as (a & at_ & Ha & Hin & Haf).
  destruct (exact_song _ _ _ _ _ part Hin (aram_zero _ _ Hz) Hpart HF) as (ess & H1 & H2). exists a, ess. auto.
Qed.
Lemma json_looped loud b verbose opt w order m Ls sss r openable n r' k bk L j sd p s part :
  banks_fit b (converter b w order opt) 0 0 m Ls sss -> is_image r -> Forall (layout_ok r) Ls -> ForallOrdPairs independent Ls ->
  rom_write b verbose m r openable (map lo_addr Ls) (converter b w order opt) (Wrote n) = (Ok tt, r') -> (length r <= n)%nat ->
  nth_error m k = Some bk -> nth_error Ls k = Some L -> zero_free L -> nth_error (songs bk) j = Some sd -> input sd = Some p -> extension p <> Some "mid"%string ->
  from_json (json_file w p) = Ok s -> song_parts s part -> song_calls s -> Forall (fun tr : track => Forall playable tr) (tracks s) ->
  (loud = true -> Forall (fun tr : track => Forall full tr) (tracks s) /\ Forall (fun i => forall tr, nth_error (tracks s) i = Some tr -> velocity_safe (tracks s) tr) part) ->
  exists a ess, holds (aram r' (lo_blocks L)) (0xd000 + 2 * Z.of_nat (count_songs (firstn k m) + j)) a /\
    (if loops sd then starts_again (aram r' (lo_blocks L)) a else stops (aram r' (lo_blocks L)) a) /\
    song_plays (aram r' (lo_blocks L)) a ess /\ plays_part (plays_track loud s) part ess.
Proof.
  intros Hfit Hr HLs HI Hw Hn Hbk HL Hz Hsd Hp Hj Hs Hpart Hc Hpl Hloud.
  destruct (json_slot _ _ _ _ _ _ _ _ _ _ _ _ _ _ _ _ _ _ _ Hfit Hr HLs HI Hw Hn Hbk HL Hsd Hp Hj Hs) as (a & at_ & Ha & Hin & Haf).
  destruct (looped_song loud _ _ _ _ _ part Hin (aram_zero _ _ Hz) Hpart Hc Hpl Hloud) as (ess & H1 & H2). exists a, ess. auto.
Qed.
