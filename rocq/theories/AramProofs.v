(** AramProofs.v: playing written tracks out of ARAM (C28). *)
From Coq Require Import ZArith List Bool Lia ZifyBool ZifyNat Arith.
From Verif Require Import Base ProofLib Command Track Song SpecNspc SpecLoop SpecRom SpecAram CodecProofs FrameProofs TreeProofs TreeProofs2 OptProofs OptExpand.
Open Scope Z_scope.
Open Scope list_scope.

(** ** Memory. *)
Definition stored (mem : Z -> option Z) (a : Z) (bs : list Z) : Prop :=
  forall j b, nth_error bs j = Some b -> mem (a + Z.of_nat j) = Some b.
Lemma stored_app mem a x y : stored mem a (x ++ y) <-> stored mem a x /\ stored mem (a + Z.of_nat (length x)) y.
Proof.
  split.
  - intros H. split; intros j b E.
    + apply H. rewrite nth_error_app1; [exact E|]. apply nth_error_lt in E. exact E.
    + replace (a + Z.of_nat (length x) + Z.of_nat j) with (a + Z.of_nat (length x + j)) by lia. apply H. rewrite nth_error_app2 by lia.
      replace (length x + j - length x)%nat with j by lia. exact E.
  - intros [H1 H2] j b E. destruct (Nat.lt_ge_cases j (length x)) as [Hj|Hj].
    + apply H1. rewrite nth_error_app1 in E by exact Hj. exact E.
    + rewrite nth_error_app2 in E by exact Hj. apply H2 in E. rewrite <- E. f_equal. lia.
Qed.
Lemma read_stored mem bs : forall a n, stored mem a bs -> (length bs <= n)%nat -> exists z, read mem a n = bs ++ z.
Proof.
  induction bs as [|b bs IH]; intros a n H Hn; [exists (read mem a n); reflexivity|]. destruct n as [|n]; cbn [length] in Hn; [lia|]. cbn [read].
  pose proof (H 0%nat b eq_refl) as H0. rewrite Z.add_0_r in H0. rewrite H0.
  destruct (IH (a + 1) n) as [z Hz]; [|lia|].
  - intros j x E. replace (a + 1 + Z.of_nat j) with (a + Z.of_nat (S j)) by lia. apply H. exact E.
  - exists z. rewrite Hz. reflexivity.
Qed.
Lemma fetch_stored mem a bs t : stored mem a bs -> (length bs <= 4)%nat -> (forall z, decode_token (bs ++ z) = Some (t, z)) ->
  fetch mem a = Some (t, a + Z.of_nat (length bs)).
Proof.
  intros H Hl Hd. unfold fetch. destruct (read_stored mem bs a 4 H Hl) as [z ->]. rewrite Hd, app_length. do 3 f_equal. lia.
Qed.
Lemma fetch_dur mem a d c : stored mem a [d; c] -> 1 <= d <= 127 -> 0x80 <= c -> fetch mem a = Some (TDuration d None, a + 1).
Proof.
  intros H Hd Hc. unfold fetch. destruct (read_stored mem [d; c] a 4 H ltac:(cbn; lia)) as [z ->]. cbn [app decode_token].
  replace (d =? 0) with false by lia. replace (d <? 0x80) with true by lia. replace (c <? 0x80) with false by lia. cbn [length].
  do 3 f_equal. lia.
Qed.

(** ** Linked bytes: loop operands hold addresses. *)
Definition lk_cmd (at_ : list Z) (c : command) : list Z :=
  match c with CallLoop t n => [0xef; nth t at_ 0 mod 256; nth t at_ 0 / 256; n] | _ => cmd_bytes c end.
Fixpoint lk_bytes (at_ : list Z) (l : list pcmd) (dur : Z) (vs : option Z) : list Z :=
  match l with
  | [] => []
  | pc :: l' => head_bytes pc dur vs ++ lk_cmd at_ (cmd pc) ++ lk_bytes at_ l' (fst (dur_part pc dur)) (fst (vs_part pc vs))
  end.
Lemma lk_cmd_length at_ c : length (lk_cmd at_ c) = length (cmd_bytes c). Proof. destruct c; reflexivity. Qed.
Lemma lk_bytes_length at_ l : forall dur vs, length (lk_bytes at_ l dur vs) = length (list_bytes l dur vs).
Proof. induction l as [|pc l IH]; intros dur vs; cbn [lk_bytes list_bytes length]; [reflexivity|]. unfold pcmd_bytes. rewrite !app_length, IH, lk_cmd_length. lia. Qed.
Lemma list_refs_ge l : forall dur vs pos x, In x (list_refs l dur vs pos) -> (pos < ref_pos x)%nat.
Proof.
  induction l as [|pc l IH]; intros dur vs pos x H; cbn [list_refs] in H; [destruct H|]. apply in_app_iff in H. destruct H as [H|H].
  - destruct (cmd pc); cbn [cmd_ref In] in H; try contradiction; destruct H as [<-|[]]; cbn [ref_pos]; lia.
  - apply IH in H. lia.
Qed.
Lemma linked_stored mem at_ a l : forall dur vs pos,
  (forall j b, nth_error (list_bytes l dur vs) j = Some b -> ~ operand (list_refs l dur vs pos) (pos + j)%nat -> mem (a + Z.of_nat (pos + j)) = Some b) ->
  (forall x, In x (list_refs l dur vs pos) -> exists ta, nth_error at_ (target_track x) = Some ta /\ holds mem (a + Z.of_nat (ref_pos x)) ta) ->
  stored mem (a + Z.of_nat pos) (lk_bytes at_ l dur vs).
Proof.
  induction l as [|pc l IH]; intros dur vs pos Hb Hr; [intros [|j] b E; discriminate|].
  cbn [lk_bytes list_bytes list_refs] in *. set (dur' := fst (dur_part pc dur)) in *. set (vs' := fst (vs_part pc vs)) in *.
  unfold pcmd_bytes in *. set (h := head_bytes pc dur vs) in *. set (c := cmd_bytes (cmd pc)) in *.
  assert (Hlow : forall j, (j < length (h ++ c))%nat -> ~ operand (list_refs l dur' vs' (pos + length (h ++ c))) (pos + j)%nat).
  { intros j Hj (x & Hx & Hpos). apply list_refs_ge in Hx. lia. }
  assert (Hcr : forall x, In x (cmd_ref (cmd pc) (pos + length h)) -> exists t n, cmd pc = CallLoop t n /\ x = mk_ref t (S (pos + length h))).
  { intros x Hx. destruct (cmd pc); cbn [cmd_ref In] in Hx; try contradiction; destruct Hx as [<-|[]]; eauto. }
  apply stored_app. split; [|apply stored_app; split].
  - intros j b E. pose proof (nth_error_lt _ _ _ E) as Hj. replace (a + Z.of_nat pos + Z.of_nat j) with (a + Z.of_nat (pos + j)) by lia. apply Hb.
    + rewrite <- app_assoc, nth_error_app1 by exact Hj. exact E.
    + intros (x & Hx & Hpos). apply in_app_iff in Hx. destruct Hx as [Hx|Hx]; [apply Hcr in Hx; destruct Hx as (t & n & _ & ->); cbn [ref_pos] in Hpos; lia|].
      apply (Hlow j); [rewrite app_length; lia|exists x; auto].
  - assert (Hplain : (forall t n, cmd pc <> CallLoop t n) -> stored mem (a + Z.of_nat pos + Z.of_nat (length h)) c).
    { intros Hno j b E. pose proof (nth_error_lt _ _ _ E) as Hj. replace (a + Z.of_nat pos + Z.of_nat (length h) + Z.of_nat j) with (a + Z.of_nat (pos + (length h + j))) by lia. apply Hb.
      - rewrite <- app_assoc, nth_error_app2 by lia. replace (length h + j - length h)%nat with j by lia. rewrite nth_error_app1 by exact Hj. exact E.
      - intros (x & Hx & Hpos). apply in_app_iff in Hx. destruct Hx as [Hx|Hx]; [apply Hcr in Hx; destruct Hx as (t & n & Ec & ->); exact (Hno t n Ec)|].
        apply (Hlow (length h + j)%nat); [rewrite app_length; lia|exists x; auto]. }
    destruct (cmd pc) as [| | | | | | | | | | | | | | | | | |t n| | | | | | | | | | |] eqn:Ec; try (apply Hplain; congruence).
    cbn [lk_cmd]. destruct (Hr (mk_ref t (S (pos + length h)))) as (ta & Hta & H1 & H2 & H3); [left; reflexivity|]. cbn [target_track ref_pos] in *.
    rewrite (nth_error_nth _ _ 0 Hta).
    assert (Hcb : forall j b, (j = 0 \/ j = 3)%nat -> nth_error c j = Some b -> mem (a + Z.of_nat (pos + (length h + j))) = Some b).
    { intros j b Hj E. apply Hb.
      - rewrite <- app_assoc, nth_error_app2 by lia. replace (length h + j - length h)%nat with j by lia. rewrite nth_error_app1 by (eapply nth_error_lt; exact E). exact E.
      - intros (x & Hx & Hpos). apply in_app_iff in Hx. destruct Hx as [Hx|Hx]; [cbn [cmd_ref] in Hx; destruct Hx as [<-|[]]; cbn [ref_pos] in Hpos; lia|].
        apply (Hlow (length h + j)%nat); [rewrite app_length; apply nth_error_lt in E; lia|exists x; auto]. }
    intros j b E. destruct j as [|[|[|[|j]]]]; cbn [nth_error] in E; [| | | |destruct j; discriminate]; injection E as <-.
    + pose proof (Hcb 0%nat 0xef ltac:(auto) eq_refl) as Hx. rewrite <- Hx. f_equal. lia.
    + rewrite <- H1. f_equal. lia.
    + rewrite <- H2. f_equal. lia.
    + pose proof (Hcb 3%nat n ltac:(auto) eq_refl) as Hx. rewrite <- Hx. f_equal. lia.
  - replace (a + Z.of_nat pos + Z.of_nat (length h) + Z.of_nat (length (lk_cmd at_ (cmd pc)))) with (a + Z.of_nat (pos + length (h ++ c)))
      by (rewrite app_length, lk_cmd_length; fold c; lia).
    apply IH.
    + intros j b E Hno. replace (pos + length (h ++ c) + j)%nat with (pos + (length (h ++ c) + j))%nat by lia. apply Hb.
      * rewrite nth_error_app2 by lia. replace (length (h ++ c) + j - length (h ++ c))%nat with j by lia. exact E.
      * intros (x & Hx & Hpos). apply in_app_iff in Hx. destruct Hx as [Hx|Hx].
        -- apply Hcr in Hx. destruct Hx as (t & n & Ec & ->). cbn [ref_pos] in Hpos. rewrite app_length in Hpos. unfold c in Hpos. rewrite Ec in Hpos. cbn in Hpos. lia.
        -- apply Hno. exists x. split; [exact Hx|lia].
    + intros x Hx. apply Hr. apply in_app_iff. right. exact Hx.
Qed.

(** ** Reading one command. *)
Definition timed (wd : Z) (dd : option Z) : Prop := 1 <= wd <= 127 -> dd = Some wd.
Definition nib (svs : option (Z * Z)) : Prop := forall qv, svs = Some qv -> nibbles_ok qv.
Lemma run_head mem calls a pc wd svs dd dv es st x tl : pcmd_ok pc -> self_timed pc -> timed wd dd -> nib svs ->
  stored mem a (head_bytes pc wd (option_map pack svs) ++ x :: tl) -> 0x80 <= x ->
  run mem calls (a + Z.of_nat (length (head_bytes pc wd (option_map pack svs)))) (or_else (positive (duration pc)) dd, or_else (snd (vs_part pc (option_map pack svs))) dv) es st ->
  run mem calls a (dd, dv) es st.
Proof.
  intros (Hb & Hd & Hdr & Hvr & Hsr) Hself Ht Hn Hst Hx Hrun. destruct (vs_part_spec pc svs Hvr Hsr Hn) as (Hv1 & Hv2 & Hv3).
  unfold head_bytes in *. destruct (snd (vs_part pc (option_map pack svs))) as [v|] eqn:Evw; cbn [is_some or_else] in *.
  - destruct (Hv3 v eq_refl) as [Hvv Hnd]. specialize (Hself (or_intror Hnd)).
    assert (Hdd : exists d, duration pc = Some d /\ 1 <= d <= 127 /\ positive (duration pc) = Some d).
    { unfold positive in *. destruct (duration pc) as [d|]; [|congruence]. exists d. cbn in Hdr. destruct (0 <? d) eqn:E; [|congruence]. repeat split; lia. }
    destruct Hdd as (d & Ed & Hd1 & Hp). rewrite Hp in *. cbn [or_else] in *.
    assert (Hvr' : 0 <= v < 0x80).
    { destruct (prescribed_vs svs pc) as [qv|] eqn:Eq; [|discriminate]. pose proof (prescribed_vs_nibbles pc svs qv Hvr Hsr Hn Eq) as [? ?].
      cbn [option_map] in Hvv. injection Hvv as <-. unfold pack. lia. }
    assert (Hhead : match snd (dur_part pc wd) with Some d => [d] | None => [wd] end = [d]).
    { unfold dur_part. rewrite Ed. destruct (negb (d =? wd)) eqn:E; cbn [snd]; [replace (0 <? d) with true by lia; reflexivity|f_equal; lia]. }
    rewrite Hhead in *. cbn [app length] in *. apply stored_app with (x := [d; v]) in Hst. destruct Hst as [Hst _].
    eapply run_duration with (v := Some v); [|exact Hrun]. change 2%nat with (length [d; v]). apply fetch_stored; [exact Hst|cbn; lia|]. intros z. cbn [app decode_token].
    replace (d =? 0) with false by lia. replace (d <? 0x80) with true by lia. replace (v <? 0x80) with true by lia. reflexivity.
  - rewrite app_nil_r in *. destruct (snd (dur_part pc wd)) as [d|] eqn:Edw.
    + assert (Hdd : 1 <= d <= 127 /\ positive (duration pc) = Some d).
      { unfold dur_part in Edw. unfold positive. destruct (duration pc) as [d0|]; [|discriminate]. cbn in Hdr. destruct (negb (d0 =? wd)); [|discriminate]. cbn [snd] in Edw.
        destruct (0 <? d0) eqn:E; [|discriminate]. injection Edw as <-. split; [lia|reflexivity]. }
      destruct Hdd as [Hd1 Hp]. rewrite Hp in *. cbn [or_else app length] in *. change (Z.of_nat 1) with 1 in Hrun.
      eapply run_duration with (v := None); [|exact Hrun]. eapply fetch_dur; [|exact Hd1|exact Hx]. change (d :: x :: tl) with ([d; x] ++ tl) in Hst. apply stored_app in Hst. tauto.
    + cbn [app length] in *. rewrite Z.add_0_r in Hrun. 
      replace (or_else (positive (duration pc)) dd) with dd in Hrun; [exact Hrun|].
      unfold positive. unfold dur_part in Edw. destruct (duration pc) as [d0|]; [|reflexivity]. cbn in Hdr. destruct (0 <? d0) eqn:E0; [|reflexivity].
      destruct (negb (d0 =? wd)) eqn:E; cbn [snd] in Edw; [discriminate|]. cbn [or_else]. assert (wd = d0) as -> by lia. apply Ht. lia.
Qed.
Lemma timed_step pc wd dd : in_range 0 127 (duration pc) -> timed wd dd -> timed (fst (dur_part pc wd)) (or_else (positive (duration pc)) dd).
Proof.
  unfold timed, dur_part, positive. intros Hr Ht. destruct (duration pc) as [d|]; cbn in Hr; [|exact Ht]. destruct (negb (d =? wd)) eqn:E; cbn [fst].
  - intros Hd. destruct (0 <? d) eqn:E0; [reflexivity|lia].
  - intros Hd. assert (d = wd) as -> by lia. replace (0 <? wd) with true by lia. reflexivity.
Qed.
Lemma cmd_bytes_small c : (length (cmd_bytes c) <= 4)%nat. Proof. destruct c; cbn; lia. Qed.
Lemma is_command_token c : (forall t n, c <> CallLoop t n) -> is_command (token_of c).
Proof. destruct c; cbn; intros H; try exact I; try lia. exfalso. eapply H. reflexivity. Qed.
Lemma run_pc mem at_ calls a pc wd svs dd dv es st tl : (forall t n, cmd pc <> CallLoop t n) -> pcmd_ok pc -> self_timed pc -> timed wd dd -> nib svs ->
  stored mem a (head_bytes pc wd (option_map pack svs) ++ lk_cmd at_ (cmd pc) ++ tl) ->
  run mem calls (a + Z.of_nat (length (head_bytes pc wd (option_map pack svs)) + length (lk_cmd at_ (cmd pc)))) (or_else (positive (duration pc)) dd, or_else (snd (vs_part pc (option_map pack svs))) dv) es st ->
  run mem calls a (dd, dv) (mk_event (token_of (cmd pc)) (or_else (positive (duration pc)) dd) (or_else (snd (vs_part pc (option_map pack svs))) dv) :: es) st.
Proof.
  intros Hnc Hok Hself Ht Hn Hst Hrun. assert (Hlk : lk_cmd at_ (cmd pc) = cmd_bytes (cmd pc)) by (destruct (cmd pc); try reflexivity; exfalso; eapply Hnc; reflexivity).
  rewrite Hlk in *. pose proof Hok as (_ & Hd & _). destruct (cmd_bytes_ge (cmd pc) Hd) as (x & r & Ex & Hx).
  eapply run_head; [exact Hok|exact Hself|exact Ht|exact Hn|rewrite Ex in Hst; cbn [app] in Hst; exact Hst|exact Hx|].
  apply stored_app in Hst. destruct Hst as [_ Hst]. apply stored_app in Hst. destruct Hst as [Hst _].
  eapply run_command; [apply fetch_stored; [exact Hst|apply cmd_bytes_small|intros z; apply decode_cmd; exact Hd]|apply is_command_token; exact Hnc|].
  rewrite <- Z.add_assoc, <- Nat2Z.inj_add. exact Hrun.
Qed.

(** ** Velocity. *)
Lemma vs_step pc svs : pcmd_ok pc -> full pc -> nib svs ->
  match vs_byte pc with
  | Some b => option_map pack (prescribed_vs svs pc) = Some b /\
      forall dv, (option_map pack svs = Some b -> dv = Some b) -> or_else (snd (vs_part pc (option_map pack svs))) dv = Some b
  | None => prescribed_vs svs pc = svs /\ snd (vs_part pc (option_map pack svs)) = None /\ is_note (cmd pc) = false
  end.
Proof.
  intros (_ & _ & _ & Hvr & Hsr) Hf Hn. destruct (vs_part_spec pc svs Hvr Hsr Hn) as (Hv1 & Hv2 & Hv3). unfold full, needs_dur, vs_byte in *.
  destruct (positive (sustain pc)) as [q|] eqn:Eq; destruct (positive (velocity pc)) as [v|] eqn:Ev.
  - assert (Hp : prescribed_vs svs pc = Some (q, v)).
    { unfold prescribed_vs. rewrite Eq, Ev. destruct (oelse svs (7, 13)). destruct (is_note (cmd pc)), svs; reflexivity. }
    rewrite Hp in *. cbn [option_map] in *. change (pack (q, v)) with (q * 16 + v) in *. split; [reflexivity|]. intros dv Hdv.
    destruct (snd (vs_part pc (option_map pack svs))) as [w|]; cbn [or_else]; [destruct (Hv3 w eq_refl) as [[= <-] _]; reflexivity|]. apply Hdv. symmetry. apply Hv2. reflexivity.
  - destruct Hf as [Hf _]; [right; left; congruence|congruence].
  - destruct Hf as [_ Hf]; [right; right; congruence|congruence].
  - assert (Hno : is_note (cmd pc) = false) by (destruct (is_note (cmd pc)) eqn:E; [destruct Hf as [Hf _]; [left; reflexivity|congruence]|reflexivity]).
    assert (Hp : prescribed_vs svs pc = svs) by (unfold prescribed_vs; rewrite Eq, Ev, Hno; destruct svs as [[q v]|]; reflexivity).
    split; [exact Hp|]. split; [|exact Hno]. destruct (snd (vs_part pc (option_map pack svs))) as [w|]; [|reflexivity]. destruct (Hv3 w eq_refl) as [_ [H|[H|H]]]; congruence.
Qed.

Definition heard_pc (loud : bool) (pc : pcmd) : token * option Z * option Z :=
  (token_of (cmd pc), if sounding (token_of (cmd pc)) then positive (duration pc) else None,
   if loud && is_tnote (token_of (cmd pc)) then vs_byte pc else None).
Lemma tnote_note c : is_tnote (token_of c) = is_note c. Proof. destruct c; reflexivity. Qed.
Lemma heard_one loud pc dd dv : self_timed pc -> (loud = true -> is_note (cmd pc) = true -> dv = vs_byte pc) ->
  heard loud (mk_event (token_of (cmd pc)) (or_else (positive (duration pc)) dd) dv) = heard_pc loud pc.
Proof.
  intros Hs Hv. unfold heard, heard_pc. cbn [ev_token ev_dur ev_vs]. f_equal; [f_equal|].
  - destruct (sounding (token_of (cmd pc))) eqn:E; [|reflexivity]. specialize (Hs (or_introl E)). destruct (positive (duration pc)); [reflexivity|congruence].
  - destruct loud; cbn [andb]; [|reflexivity]. rewrite tnote_note. destruct (is_note (cmd pc)); [|reflexivity]. apply Hv; reflexivity.
Qed.

(** ** Loop bodies. *)
Definition plain_ok (pc : pcmd) : Prop := pcmd_ok pc /\ self_timed pc.
Lemma playable_plain pc : (forall t n, cmd pc <> CallLoop t n) -> playable pc -> plain_ok pc.
Proof. unfold playable, plain_ok. intros H Hp. destruct (cmd pc) eqn:E; try exact Hp. exfalso. eapply H. reflexivity. Qed.
Lemma full_note pc svs : pcmd_ok pc -> full pc -> nib svs -> is_note (cmd pc) = true -> vs_byte pc <> None.
Proof. intros H1 H2 H3 H4. pose proof (vs_step pc svs H1 H2 H3) as H. destruct (vs_byte pc); [discriminate|]. destruct H as (_ & _ & H). congruence. Qed.
Lemma nib_step pc svs : pcmd_ok pc -> nib svs -> nib (prescribed_vs svs pc).
Proof. intros (_ & _ & _ & Hv & Hs) Hn qv E. eapply prescribed_vs_nibbles; eassumption. Qed.
Lemma run_body loud mem at_ l : loop_free l -> Forall playable l -> (loud = true -> Forall full l) -> forall a wd svs dd dv,
  timed wd dd -> nib svs -> (loud = true -> forall b, option_map pack svs = Some b -> dv = Some b) ->
  stored mem a (lk_bytes at_ l wd (option_map pack svs) ++ [0]) ->
  exists es dd' dv', run mem false a (dd, dv) es (dd', dv') /\ map (heard loud) es = map (heard_pc loud) l /\ (loud = true -> dv' = or_else (last_byte l) dv).
Proof.
  induction 1 as [|pc l Hpc Hfree IH]; intros Hpl Hfull a wd svs dd dv Ht Hn Hv Hst.
  - exists [], dd, dv. split; [|split; [reflexivity|intros _; reflexivity]]. cbn [lk_bytes app] in Hst. eapply run_end. apply (fetch_stored mem a [0] TEnd Hst); [cbn; lia|reflexivity].
  - inversion Hpl as [|? ? Hp Hpl']; subst. destruct (playable_plain pc Hpc Hp) as [Hok Hself].
    pose proof Hok as (_ & _ & Hdr & Hvr & Hsr). destruct (vs_part_spec pc svs Hvr Hsr Hn) as (Hv1 & _ & _).
    cbn [lk_bytes] in Hst. rewrite <- !app_assoc in Hst. rewrite Hv1 in Hst.
    assert (Hfull' : loud = true -> Forall full l) by (intros E; specialize (Hfull E); inversion Hfull; assumption).
    assert (Hfpc : loud = true -> full pc) by (intros E; specialize (Hfull E); inversion Hfull; assumption).
    set (dv1 := or_else (snd (vs_part pc (option_map pack svs))) dv).
    assert (Hdv1 : loud = true -> dv1 = or_else (vs_byte pc) dv /\ (forall b, option_map pack (prescribed_vs svs pc) = Some b -> dv1 = Some b)).
    { intros E. pose proof (vs_step pc svs Hok (Hfpc E) Hn) as Hs. unfold dv1. destruct (vs_byte pc) as [b|]; cbn [or_else].
      - destruct Hs as [Hs1 Hs2]. rewrite (Hs2 dv (fun X => Hv E b X)). split; [reflexivity|]. intros b' Hb'. congruence.
      - destruct Hs as (Hs1 & Hs2 & _). rewrite Hs2, Hs1. cbn [or_else]. split; [reflexivity|]. exact (Hv E). }
    destruct (IH Hpl' Hfull' (a + Z.of_nat (length (head_bytes pc wd (option_map pack svs)) + length (lk_cmd at_ (cmd pc)))) (fst (dur_part pc wd)) (prescribed_vs svs pc)
      (or_else (positive (duration pc)) dd) dv1) as (es & dd' & dv' & Hrun & Hh & Hlast).
    + apply timed_step; assumption.
    + apply nib_step; assumption.
    + intros E b Hb. apply (proj2 (Hdv1 E)). exact Hb.
    + apply stored_app in Hst. destruct Hst as [_ Hst]. apply stored_app in Hst. destruct Hst as [_ Hst]. rewrite <- Z.add_assoc, <- Nat2Z.inj_add in Hst. exact Hst.
    + eexists (_ :: es), dd', dv'. split; [eapply run_pc; [exact Hpc|exact Hok|exact Hself|exact Ht|exact Hn|exact Hst|exact Hrun]|]. split.
      * cbn [map]. rewrite Hh. f_equal. apply heard_one; [exact Hself|]. intros E Hnote. destruct (Hdv1 E) as [E1 _]. change (dv1 = vs_byte pc). rewrite E1.
        pose proof (full_note pc svs Hok (Hfpc E) Hn Hnote). destruct (vs_byte pc); [reflexivity|congruence].
      * intros E. rewrite (Hlast E). destruct (Hdv1 E) as [E1 _]. rewrite E1. cbn [last_byte]. destruct (last_byte l); [reflexivity|]. reflexivity.
Qed.
Lemma timed_any dd : timed 0xff dd. Proof. unfold timed. lia. Qed.
Lemma run_copies loud mem at_ body a : loop_free body -> Forall playable body -> (loud = true -> Forall full body) ->
  stored mem a (lk_bytes at_ body 0xff None ++ [0]) -> forall k dd dv,
  exists es dd' dv', run_times mem k a (dd, dv) es (dd', dv') /\ map (heard loud) es = map (heard_pc loud) (copies k body) /\
    (loud = true -> (0 < k)%nat -> dv' = or_else (last_byte body) dv).
Proof.
  intros Hf Hp Hfull Hst. induction k as [|k IH]; intros dd dv.
  - exists [], dd, dv. split; [constructor|]. split; [reflexivity|lia].
  - destruct (run_body loud mem at_ body Hf Hp Hfull a 0xff None dd dv (timed_any dd) ltac:(intros qv E; discriminate) ltac:(intros _ b E; discriminate) Hst) as (es1 & dd1 & dv1 & Hr1 & Hh1 & Hl1).
    destruct (IH dd1 dv1) as (es2 & dd2 & dv2 & Hr2 & Hh2 & Hl2). exists (es1 ++ es2), dd2, dv2. split; [econstructor; eassumption|]. split.
    + cbn [copies]. rewrite !map_app, Hh1, Hh2. reflexivity.
    + intros E _. destruct k as [|k]; [inversion Hr2; subst; apply Hl1; reflexivity|]. rewrite (Hl2 E ltac:(lia)), (Hl1 E). destruct (last_byte body); reflexivity.
Qed.

(** ** Top-level tracks. *)
Definition body_at (loud : bool) (mem : Z -> option Z) (at_ : list Z) (song : list track) (t : nat) : Prop :=
  loop_free (nth t song []) /\ Forall playable (nth t song []) /\ (loud = true -> Forall full (nth t song [])) /\
  stored mem (nth t at_ 0) (lk_bytes at_ (nth t song []) 0xff None ++ [0]).
Definition after (song : list track) (dv : option Z) (mid : list pcmd) : option Z :=
  fold_left (fun d pc => match cmd pc with CallLoop t _ => or_else (last_byte (nth t song [])) d | _ => d end) mid dv.
Definition vinv (song : list track) (l : list pcmd) (wv dv : option Z) : Prop :=
  forall mid n2 y b, l = mid ++ n2 :: y -> (forall pc, In pc mid -> vs_byte pc = None) -> vs_byte n2 = Some b -> wv = Some b -> after song dv mid = Some b.
Lemma bare_call pc wd wv : duration pc = Some 0 -> velocity pc = Some 0 -> sustain pc = Some 0 -> is_note (cmd pc) = false ->
  head_bytes pc wd wv = [] /\ fst (dur_part pc wd) = 0 /\ fst (vs_part pc wv) = wv /\ vs_byte pc = None.
Proof.
  intros Hd Hv Hs Hn.
  assert (E1 : requested_vs pc wv = None) by (unfold requested_vs; rewrite Hv, Hs; reflexivity).
  assert (E2 : vs_part pc wv = (wv, None)) by (unfold vs_part; rewrite E1, Hn; destruct wv; reflexivity).
  assert (E3 : dur_part pc wd = (0, None)) by (unfold dur_part; rewrite Hd; destruct (negb (0 =? wd)) eqn:E; [reflexivity|f_equal; lia]).
  unfold head_bytes. rewrite E2, E3. repeat split; try reflexivity. unfold vs_byte. rewrite Hs. reflexivity.
Qed.
Lemma run_top loud mem at_ song l : Forall playable l -> (loud = true -> Forall full l) ->
  (forall pc t k, In pc l -> cmd pc = CallLoop t k -> body_at loud mem at_ song t) -> forall a wd svs dd dv,
  timed wd dd -> nib svs -> (loud = true -> vinv song l (option_map pack svs) dv) -> (loud = true -> velocity_safe song l) ->
  (forall t, nth_error song t = Some (nth t song []) \/ length song <= t)%nat ->
  stored mem a (lk_bytes at_ l wd (option_map pack svs) ++ [0]) ->
  exists es st, run mem true a (dd, dv) es st /\ map (heard loud) es = map (heard_pc loud) (exp song l).
Proof.
  induction l as [|pc l IH]; intros Hpl Hfull Hbody a wd svs dd dv Ht Hn Hv Hsafe Hnth Hst.
  - exists [], (dd, dv). split; [|reflexivity]. cbn [lk_bytes app] in Hst. eapply run_end. apply (fetch_stored mem a [0] TEnd Hst); [cbn; lia|reflexivity].
  - inversion Hpl as [|? ? Hp Hpl']; subst. cbn [lk_bytes] in Hst. rewrite <- !app_assoc in Hst.
    assert (Hfull' : loud = true -> Forall full l) by (intros E; specialize (Hfull E); inversion Hfull; assumption).
    assert (Hfpc : loud = true -> full pc) by (intros E; specialize (Hfull E); inversion Hfull; assumption).
    assert (Hbody' : forall pc t k, In pc l -> cmd pc = CallLoop t k -> body_at loud mem at_ song t) by (intros q t k Hq; apply Hbody; right; exact Hq).
    assert (Hsafe' : loud = true -> velocity_safe song l).
    { intros E x n1 mid n2 y El. apply (Hsafe E (pc :: x) n1 mid n2 y). rewrite El. reflexivity. }
    cbn [exp flat_map]. fold (exp song l).
    destruct (match cmd pc with CallLoop t k => Some (t, k) | _ => None end) as [[t k]|] eqn:Ec.
    + assert (Ecmd : cmd pc = CallLoop t k) by (destruct (cmd pc); try discriminate; injection Ec as -> ->; reflexivity). clear Ec.
      unfold playable in Hp. rewrite Ecmd in Hp. destruct Hp as (Hk & Hd & Hvel & Hs).
      destruct (bare_call pc wd (option_map pack svs) Hd Hvel Hs) as (Eh & Ed & Ev & Evb); [rewrite Ecmd; reflexivity|].
      rewrite Eh, Ed, Ev, Ecmd in Hst. cbn [app lk_cmd] in Hst.
      change (0xef :: nth t at_ 0 mod 256 :: nth t at_ 0 / 256 :: k :: lk_bytes at_ l 0 (option_map pack svs) ++ [0]) with
        ([0xef; nth t at_ 0 mod 256; nth t at_ 0 / 256; k] ++ lk_bytes at_ l 0 (option_map pack svs) ++ [0]) in Hst.
      apply stored_app in Hst. destruct Hst as [Hcall Hst]. cbn [length] in Hst.
      destruct (Hbody pc t k ltac:(left; reflexivity) Ecmd) as (Hf & Hpb & Hfb & Hsb).
      destruct (run_copies loud mem at_ (nth t song []) (nth t at_ 0) Hf Hpb Hfb Hsb (Z.to_nat k) dd dv) as (es1 & dd1 & dv1 & Hr1 & Hh1 & Hl1).
      destruct (IH Hpl' Hfull' Hbody' (a + Z.of_nat 4) 0 svs dd1 dv1) as (es2 & st & Hr2 & Hh2); try assumption.
      * unfold timed. lia.
      * intros E mid n2 y b El Hmid Hn2 Hw. rewrite (Hl1 E ltac:(lia)). 
        specialize (Hv E (pc :: mid) n2 y b ltac:(rewrite El; reflexivity)). unfold after in Hv. cbn [fold_left] in Hv. rewrite Ecmd in Hv. apply Hv; [|exact Hn2|exact Hw].
        intros q [<-|Hq]; [exact Evb|apply Hmid, Hq].
      * exists (es1 ++ es2), st. split.
        -- eapply run_call with (n := k) (lo := nth t at_ 0 mod 256) (hi := nth t at_ 0 / 256); [apply (fetch_stored mem a _ (TControl 0xef [nth t at_ 0 mod 256; nth t at_ 0 / 256; k]) Hcall); [cbn; lia|reflexivity]|lia| |exact Hr2].
           replace (nth t at_ 0 mod 256 + 256 * (nth t at_ 0 / 256)) with (nth t at_ 0) by lia. exact Hr1.
        -- rewrite !map_app, Hh2. f_equal. unfold exp1. rewrite Ecmd. exact Hh1.
    + assert (Hpc : forall t n, cmd pc <> CallLoop t n) by (intros t n E; rewrite E in Ec; discriminate). clear Ec.
      destruct (playable_plain pc Hpc Hp) as [Hok Hself]. pose proof Hok as (_ & _ & Hdr & Hvr & Hsr). destruct (vs_part_spec pc svs Hvr Hsr Hn) as (Hv1 & _ & _). rewrite Hv1 in Hst.
      set (dv1 := or_else (snd (vs_part pc (option_map pack svs))) dv).
      assert (Hdv1 : loud = true -> dv1 = or_else (vs_byte pc) dv /\ vinv song l (option_map pack (prescribed_vs svs pc)) dv1).
      { intros E. pose proof (vs_step pc svs Hok (Hfpc E) Hn) as Hs. unfold dv1. destruct (vs_byte pc) as [b|] eqn:Eb; cbn [or_else].
        - destruct Hs as [Hs1 Hs2]. rewrite Hs2; [|intros X; exact (Hv E [] pc l b eq_refl ltac:(intros ? []) Eb X)]. split; [reflexivity|].
          intros mid n2 y b' El Hmid Hn2 Hw. assert (b' = b) as -> by congruence.
          pose proof (Hsafe E [] pc mid n2 y ltac:(rewrite El; reflexivity) ltac:(congruence) ltac:(congruence) Hmid) as Hs. rewrite Eb in Hs.
          clear - Hs Hnth. unfold after. induction mid as [|q mid IHm]; [reflexivity|]. cbn [fold_left].
          assert (Hq : match cmd q with CallLoop t _ => or_else (last_byte (nth t song [])) (Some b) | _ => Some b end = Some b).
          { destruct (cmd q) as [| | | | | | | | | | | | | | | | | |t k| | | | | | | | | | |] eqn:Eq; try reflexivity. destruct (Hnth t) as [Ht|Ht].
            - destruct (Hs q t k _ (or_introl eq_refl) Eq Ht) as [->| ->]; reflexivity.
            - rewrite nth_overflow by exact Ht. reflexivity. }
          rewrite Hq. apply IHm. intros pc' t k body Hin. apply Hs. right. exact Hin.
        - destruct Hs as (Hs1 & Hs2 & _). rewrite Hs2, Hs1. cbn [or_else]. split; [reflexivity|]. intros mid n2 y b El Hmid Hn2 Hw.
          specialize (Hv E (pc :: mid) n2 y b ltac:(rewrite El; reflexivity)). unfold after in *. cbn [fold_left] in Hv.
          replace (match cmd pc with CallLoop t _ => or_else (last_byte (nth t song [])) dv | _ => dv end) with dv in Hv by (destruct (cmd pc) eqn:Eq; try reflexivity; exfalso; eapply Hpc; reflexivity).
          apply Hv; [|exact Hn2|exact Hw]. intros q [<-|Hq]; [exact Eb|apply Hmid, Hq]. }
      destruct (IH Hpl' Hfull' Hbody' (a + Z.of_nat (length (head_bytes pc wd (option_map pack svs)) + length (lk_cmd at_ (cmd pc)))) (fst (dur_part pc wd)) (prescribed_vs svs pc)
        (or_else (positive (duration pc)) dd) dv1) as (es & st & Hrun & Hh).
      * apply timed_step; assumption.
      * apply nib_step; assumption.
      * intros E. apply (proj2 (Hdv1 E)).
      * exact Hsafe'.
      * exact Hnth.
      * apply stored_app in Hst. destruct Hst as [_ Hst]. apply stored_app in Hst. destruct Hst as [_ Hst]. rewrite <- Z.add_assoc, <- Nat2Z.inj_add in Hst. exact Hst.
      * eexists (_ :: es), st. split; [eapply run_pc; [exact Hpc|exact Hok|exact Hself|exact Ht|exact Hn|exact Hst|exact Hrun]|].
        rewrite exp1_plain by exact Hpc. cbn [map app]. rewrite Hh. f_equal. apply heard_one; [exact Hself|]. intros E Hnote. change (dv1 = vs_byte pc). rewrite (proj1 (Hdv1 E)).
        pose proof (full_note pc svs Hok (Hfpc E) Hn Hnote). destruct (vs_byte pc); [reflexivity|congruence].
Qed.
(** What the expanded list prescribes. *)
Lemma heard_prescribed loud l : Forall plain_ok l -> (loud = true -> Forall full l) -> forall dur svs, nib svs ->
  map (heard loud) (prescribed l dur svs) = map (heard_pc loud) l.
Proof.
  induction 1 as [|pc l [Hok Hself] H IH]; intros Hfull dur svs Hn; [reflexivity|]. cbn [prescribed map]. 
  assert (Hfull' : loud = true -> Forall full l) by (intros E; specialize (Hfull E); inversion Hfull; assumption).
  rewrite IH by (try exact Hfull'; apply nib_step; assumption). f_equal. apply heard_one; [exact Hself|]. intros E Hnote. specialize (Hfull E). inversion Hfull; subst.
  pose proof (vs_step pc svs Hok ltac:(assumption) Hn) as Hs. pose proof (full_note pc svs Hok ltac:(assumption) Hn Hnote). destruct (vs_byte pc); [apply Hs|congruence].
Qed.

(** ** A song in ARAM. *)
Lemma song_stored mem a lp s at_ i tr : song_in mem a lp s at_ -> (forall p, In p (parts s) -> p <> []) -> nth_error (tracks s) i = Some tr -> tr <> [] ->
  exists pre, frame_preamble s i pre /\ stored mem (nth i at_ 0) (pre ++ lk_bytes at_ tr 0xff None ++ [0]).
Proof.
  intros Hs Hp Htr Hne. destruct (si_tracks _ _ _ _ _ Hs i) as (data & refs & Hw & a' & Ha & _ & Hbytes & Hrefs); [eapply nth_error_lt; exact Htr|].
  destruct (write_track_frame s [] i [] tr Htr Hne Hp) as (pre & loops' & Hw' & Hl & Hfr). rewrite Hw in Hw'. injection Hw' as Hd <-.
  exists pre. split; [exact Hfr|]. rewrite (nth_error_nth _ _ 0 Ha). cbn [app] in Hd, Hl. unfold track_write in Hd, Hl. rewrite track_write_from_eq in Hd, Hl. cbn [fst snd app] in Hd, Hl.
  assert (Hge : forall x, In x refs -> (length pre < ref_pos x)%nat) by (intros x Hx; rewrite Hl in Hx; apply list_refs_ge in Hx; exact Hx).
  assert (Hget : forall j b, nth_error data j = Some b -> ~ operand refs j -> mem (a' + Z.of_nat j) = Some b).
  { intros j b E Hno. rewrite (Hbytes j (nth_error_lt _ _ _ E) Hno). f_equal. apply nth_error_nth. exact E. }
  apply stored_app. split; [|apply stored_app; split].
  - intros j b E. pose proof (nth_error_lt _ _ _ E) as Hj. apply Hget; [rewrite Hd, nth_error_app1 by exact Hj; exact E|]. intros (x & Hx & Hpos). apply Hge in Hx. lia.
  - apply linked_stored.
    + intros j b E Hno. apply Hget; [|rewrite Hl; exact Hno]. rewrite Hd, nth_error_app2 by lia. replace (length pre + j - length pre)%nat with j by lia.
      rewrite nth_error_app1 by (eapply nth_error_lt; exact E). exact E.
    + intros x Hx. apply Hrefs. rewrite Hl. exact Hx.
  - rewrite lk_bytes_length. intros j b E. destruct j as [|j]; [|destruct j; discriminate]. injection E as <-.
    replace (a' + Z.of_nat (length pre) + Z.of_nat (length (list_bytes tr 0xff None)) + Z.of_nat 0) with (a' + Z.of_nat (length pre + length (list_bytes tr 0xff None))) by lia.
    apply Hget.
    + rewrite Hd, nth_error_app2 by lia. rewrite nth_error_app2 by lia. replace (length pre + length (list_bytes tr 0xff None) - length pre - length (list_bytes tr 0xff None))%nat with 0%nat by lia. reflexivity.
    + intros (x & Hx & Hpos). rewrite Hl in Hx. clear - Hx Hpos.
      assert (Hb : forall l dur vs pos x, In x (list_refs l dur vs pos) -> (S (ref_pos x) < pos + length (list_bytes l dur vs))%nat).
      { clear. induction l as [|pc l IH]; intros dur vs pos x H; cbn [list_refs list_bytes] in *; [destruct H|]. rewrite app_length. apply in_app_iff in H. destruct H as [H|H].
        - unfold pcmd_bytes. rewrite app_length. destruct (cmd pc); cbn [cmd_ref In] in H; try contradiction. destruct H as [<-|[]]. cbn [ref_pos]. cbn [cmd_bytes command_write fst length app]. lia.
        - apply IH in H. lia. }
      apply Hb in Hx. lia.
Qed.
Lemma run_controls mem calls pre_cmds pre : forall a es st,
  (pre = PREAMBLE_TRACK_0 /\ pre_cmds = [(0xfa, [0x19]); (0xe5, [0xc8]); (0xed, [0xc8])] \/ pre = PREAMBLE_OTHER_TRACK /\ pre_cmds = [(0xed, [0xc8])] \/ pre = [] /\ pre_cmds = []) ->
  stored mem a pre -> run mem calls (a + Z.of_nat (length pre)) (None, None) es st -> run mem calls a (None, None) (control_events pre_cmds ++ es) st.
Proof.
  assert (Hone : forall a op p r es st, In op [0xfa; 0xe5; 0xed] -> stored mem a (op :: p :: r) -> run mem calls (a + 2) (None, None) es st ->
    run mem calls a (None, None) (mk_event (TControl op [p]) None None :: es) st).
  { intros a op p r es st Hop Hst Hr. eapply run_command; [|cbn; destruct Hop as [<-|[<-|[<-|[]]]]; lia|exact Hr]. change 2 with (Z.of_nat (length [op; p])). apply fetch_stored.
    - change (op :: p :: r) with ([op; p] ++ r) in Hst. apply stored_app in Hst. tauto.
    - cbn; lia.
    - intros z. destruct Hop as [<-|[<-|[<-|[]]]]; reflexivity. }
  assert (Htl : forall a x y r, stored mem a (x :: y :: r) -> stored mem (a + 2) r).
  { intros a x y r Hst. change (x :: y :: r) with ([x; y] ++ r) in Hst. apply stored_app in Hst. apply Hst. }
  intros a es st [[-> ->]|[[-> ->]|[-> ->]]] Hst Hr; cbn [control_events map app fst snd length] in *.
  - eapply Hone; [cbn; auto|exact Hst|]. apply Htl in Hst. eapply Hone; [cbn; auto|exact Hst|]. apply Htl in Hst. eapply Hone; [cbn; auto|exact Hst|].
    replace (a + 2 + 2 + 2) with (a + Z.of_nat (length PREAMBLE_TRACK_0)) by (cbn; lia). exact Hr.
  - eapply Hone; [cbn; auto|exact Hst|exact Hr].
  - rewrite Z.add_0_r in Hr. exact Hr.
Qed.
Lemma frame_cases s i pre : (forall p, In p (parts s) -> p <> []) -> frame_preamble s i pre -> exists pre_cmds, frame_cmds s i pre_cmds /\
  (pre = PREAMBLE_TRACK_0 /\ pre_cmds = [(0xfa, [0x19]); (0xe5, [0xc8]); (0xed, [0xc8])] \/ pre = PREAMBLE_OTHER_TRACK /\ pre_cmds = [(0xed, [0xc8])] \/ pre = [] /\ pre_cmds = []).
Proof.
  intros Hp (H1 & H2 & H3). destruct (opens_a_part_true (parts s) i Hp) as ([|] & _ & Hiff).
  - pose proof (proj1 Hiff eq_refl) as Hex. eexists. split; [|left; split; [apply H1; exact Hex|reflexivity]]. split; [reflexivity|]. destruct Hex as (q & Hq). split; intros Hno; exfalso; [eapply Hno; exact Hq|eapply Hno; [exact Hq|left; reflexivity]].
  - assert (Hno : forall q, ~ In (i :: q) (parts s)) by (intros q Hq; assert (false = true) by (apply Hiff; eauto); discriminate).
    destruct (existsb (fun p => existsb (Nat.eqb i) p) (parts s)) eqn:E.
    + apply in_part_true in E. eexists. split; [|right; left; split; [apply H2; assumption|reflexivity]]. split; [intros (q & Hq); exfalso; eapply Hno; exact Hq|]. split; [reflexivity|].
      intros Hn. destruct E as (p & Hpp & Hi). exfalso. eapply Hn; eassumption.
    + assert (Hn : forall p, In p (parts s) -> ~ In i p) by (intros p Hpp Hi; assert (existsb (fun p => existsb (Nat.eqb i) p) (parts s) = true) by (apply in_part_true; eauto); congruence).
      eexists. split; [|right; right; split; [apply H3; exact Hn|reflexivity]]. split; [intros (q & Hq); exfalso; eapply Hno; exact Hq|]. split; [intros _ (p & Hpp & Hi); exfalso; eapply Hn; eassumption|reflexivity].
Qed.
Lemma exp_forall (Q : pcmd -> Prop) song l : (forall pc, In pc l -> (forall t n, cmd pc <> CallLoop t n) -> Q pc) ->
  (forall pc t k, In pc l -> cmd pc = CallLoop t k -> Forall Q (nth t song [])) -> Forall Q (exp song l).
Proof.
  intros H1 H2. apply Forall_forall. intros x Hx. apply in_flat_map in Hx. destruct Hx as (pc & Hin & Hx). unfold exp1 in Hx.
  destruct (cmd pc) as [| | | | | | | | | | | | | | | | | |t k| | | | | | | | | | |] eqn:E; try (destruct Hx as [<-|[]]; apply H1; [exact Hin|congruence]).
  specialize (H2 pc t k Hin E). rewrite Forall_forall in H2. apply H2. clear - Hx. induction (Z.to_nat k) as [|m IH]; cbn [copies] in Hx; [destruct Hx|]. apply in_app_iff in Hx. tauto.
Qed.
Lemma track_heard loud mem a lp s at_ n i tr out :
  song_in mem a lp s at_ -> well_formed_loops n (tracks s) -> (forall p, In p (parts s) -> p <> [] /\ Forall (fun t => (t < n)%nat) p) -> (n <= length (tracks s))%nat ->
  Forall (fun tr : track => Forall playable tr) (tracks s) ->
  (loud = true -> Forall (fun tr : track => Forall full tr) (tracks s) /\ velocity_safe (tracks s) tr) ->
  (i < n)%nat -> nth_error (tracks s) i = Some tr -> tr <> [] -> plays_as (tracks s) tr out ->
  exists pre es st, frame_cmds s i pre /\ run mem true (nth i at_ 0) (None, None) (control_events pre ++ es) st /\
    map (heard loud) es = map (heard loud) (prescribed out None None).
Proof.
  intros Hs Hw Hparts Hn Hpl Hloud Hi Htr Hne Hplays. pose proof (wfl_shape n (tracks s) Hn Hw) as Hsh.
  assert (Hp : forall p, In p (parts s) -> p <> []) by (intros p Hin; apply (Hparts p Hin)).
  destruct (song_stored mem a lp s at_ i tr Hs Hp Htr Hne) as (pre & Hfr & Hst). destruct (frame_cases s i pre Hp Hfr) as (pre_cmds & Hfc & Hcase).
  apply stored_app in Hst. destruct Hst as [Hst1 Hst2].
  assert (Hplt : Forall playable tr) by (rewrite Forall_forall in Hpl; apply Hpl; eapply nth_error_In; exact Htr).
  assert (Hcin : Forall (call_in n (length (tracks s))) tr).
  { destruct Hsh as [H1 _]. rewrite Forall_forall in H1. apply H1. eapply nth_error_In. rewrite nth_error_firstn by exact Hi. exact Htr. }
  assert (Hbody : forall pc t k, In pc tr -> cmd pc = CallLoop t k -> body_at loud mem at_ (tracks s) t).
  { intros pc t k Hin E. rewrite Forall_forall in Hcin. destruct (Hcin pc Hin t k E) as [Ht _].
    pose proof (nth_error_nth' (tracks s) [] (proj2 Ht)) as Hb. destruct Hw as [_ Hw]. destruct (Hw t _ (proj1 Ht) Hb) as (Hlen & Hmay & _).
    destruct (song_stored mem a lp s at_ t _ Hs Hp Hb) as (pre' & (_ & _ & Hfr') & Hst'); [intros X; rewrite X in Hlen; cbn in Hlen; lia|].
    rewrite Hfr' in Hst' by (intros p Hpp Hinp; destruct (Hparts p Hpp) as [_ Hlt]; rewrite Forall_forall in Hlt; specialize (Hlt t Hinp); lia).
    split; [apply may_free; exact Hmay|]. split; [rewrite Forall_forall in Hpl; apply Hpl; eapply nth_error_In; exact Hb|]. split; [|exact Hst'].
    intros El. destruct (Hloud El) as [Hf _]. rewrite Forall_forall in Hf. apply Hf. eapply nth_error_In; exact Hb. }
  assert (Hfull : loud = true -> Forall full tr) by (intros El; destruct (Hloud El) as [Hf _]; rewrite Forall_forall in Hf; apply Hf; eapply nth_error_In; exact Htr).
  destruct (run_top loud mem at_ (tracks s) tr Hplt Hfull Hbody (nth i at_ 0 + Z.of_nat (length pre)) 0xff None None None (timed_any None) ltac:(intros qv E; discriminate)
    ltac:(intros _ mid n2 y b _ _ _ E; discriminate) (fun El => proj2 (Hloud El))) as (es & st & Hrun & Hh); [|exact Hst2|].
  { intros t. destruct (Nat.lt_ge_cases t (length (tracks s))) as [Ht|Ht]; [left; apply nth_error_nth'; exact Ht|right; exact Ht]. }
  exists pre_cmds, es, st. split; [exact Hfc|]. split; [eapply run_controls; eassumption|]. rewrite Hh.
  assert (Eo : out = exp (tracks s) tr) by (eapply plays_det; [exact Hplays|apply (plays_exp n); assumption]). rewrite Eo. symmetry. apply heard_prescribed; [| |intros qv E; discriminate].
  - apply exp_forall.
    + intros pc Hin Hnc. apply playable_plain; [exact Hnc|]. rewrite Forall_forall in Hplt. apply Hplt, Hin.
    + intros pc t k Hin E. destruct (Hbody pc t k Hin E) as (Hf & Hpb & _). unfold loop_free in Hf. rewrite Forall_forall in Hf, Hpb |- *. intros x Hx. apply playable_plain; [exact (Hf x Hx)|exact (Hpb x Hx)].
  - intros El. apply exp_forall.
    + intros pc Hin _. specialize (Hfull El). rewrite Forall_forall in Hfull. apply Hfull, Hin.
    + intros pc t k Hin E. destruct (Hbody pc t k Hin E) as (_ & _ & Hf & _). apply Hf, El.
Qed.
