(** CodecProofs.v: proofs about the command and track writers (C01-C04, C47). *)
From Coq Require Import ZArith List Bool Lia ZifyBool ZifyNat.
From Verif Require Import Base Command Track SpecNspc ProofLib.
Ltac Zify.zify_post_hook ::= Z.div_mod_to_equations.

(** ** Factoring the writers over the output buffer. *)
Definition cmd_bytes (c : command) : list Z := fst (command_write c [] []).
Definition cmd_ref (c : command) (pos : nat) : list call_loop_ref :=
  match c with CallLoop t _ => [mk_ref t (S pos)] | _ => [] end.

Lemma command_write_eq c out loops :
  command_write c out loops = (out ++ cmd_bytes c, loops ++ cmd_ref c (length out)).
Proof.
  destruct c; unfold cmd_bytes; cbn [command_write fst cmd_ref app];
    rewrite ?app_nil_r; try reflexivity.
  rewrite app_length. cbn [length]. replace (length out + 1)%nat with (S (length out)) by lia.
  reflexivity.
Qed.

(** Bytes and new state of one parameterised command. *)
Definition dur_part (pc : pcmd) (prev : Z) : Z * option Z :=
  match duration pc with
  | Some d => if negb (d =? prev) then (d, if 0 <? d then Some d else None) else (prev, None)
  | None => (prev, None)
  end.
Definition vs_part (pc : pcmd) (prev : option Z) : option Z * option Z :=
  match requested_vs pc prev with
  | Some vs =>
      match prev with
      | Some pv => if negb (pv =? vs) then (Some vs, Some vs) else (prev, None)
      | None => (Some vs, Some vs)
      end
  | None =>
      match prev with
      | None => if is_note (cmd pc) then (Some 0x7d, Some 0x7d) else (prev, None)
      | Some _ => (prev, None)
      end
  end.
Definition head_bytes (pc : pcmd) (dur : Z) (vs : option Z) : list Z :=
  match snd (dur_part pc dur) with
  | Some d => [d]
  | None => if is_some (snd (vs_part pc vs)) then [dur] else []
  end ++ match snd (vs_part pc vs) with Some v => [v] | None => [] end.
Definition pcmd_bytes (pc : pcmd) (dur : Z) (vs : option Z) : list Z :=
  head_bytes pc dur vs ++ cmd_bytes (cmd pc).

Lemma pcmd_write_eq pc out dur vs loops :
  pcmd_write pc out dur vs loops =
  (out ++ pcmd_bytes pc dur vs, fst (dur_part pc dur), fst (vs_part pc vs),
   loops ++ cmd_ref (cmd pc) (length out + length (head_bytes pc dur vs))).
Proof.
  unfold pcmd_write.
  change (match duration pc with
    | Some d => if negb (d =? dur) then (d, if 0 <? d then Some d else None) else (dur, None)
    | None => (dur, None) end) with (dur_part pc dur).
  match goal with |- (let '(_, _) := _ in let '(_, _) := ?e in _) = _ => change e with (vs_part pc vs) end.
  unfold pcmd_bytes, head_bytes.
  destruct (dur_part pc dur) as [d1 d2]; destruct (vs_part pc vs) as [v1 v2]; cbn [fst snd].
  destruct d2, v2; cbn [is_some]; rewrite ?command_write_eq, <- ?app_assoc, ?app_length, ?app_nil_r;
    cbn [app length]; rewrite ?Nat.add_0_r; try reflexivity.
  all: repeat f_equal; lia.
Qed.

(** Bytes and references of a command list. *)
Fixpoint list_bytes (l : list pcmd) (dur : Z) (vs : option Z) : list Z :=
  match l with
  | [] => []
  | pc :: l' => pcmd_bytes pc dur vs ++ list_bytes l' (fst (dur_part pc dur)) (fst (vs_part pc vs))
  end.
Fixpoint list_refs (l : list pcmd) (dur : Z) (vs : option Z) (pos : nat) : list call_loop_ref :=
  match l with
  | [] => []
  | pc :: l' =>
      cmd_ref (cmd pc) (pos + length (head_bytes pc dur vs))
      ++ list_refs l' (fst (dur_part pc dur)) (fst (vs_part pc vs)) (pos + length (pcmd_bytes pc dur vs))
  end.
Lemma track_write_from_eq l out dur vs loops :
  track_write_from l out dur vs loops =
  (out ++ list_bytes l dur vs, loops ++ list_refs l dur vs (length out)).
Proof.
  revert out dur vs loops; induction l as [|pc l IH]; intros out dur vs loops; cbn [track_write_from list_bytes list_refs].
  - rewrite !app_nil_r; reflexivity.
  - rewrite pcmd_write_eq, IH, app_length, <- !app_assoc. reflexivity.
Qed.

(** ** C01 *)
Lemma decode_cmd c rest : driver_ok c -> decode_token (cmd_bytes c ++ rest) = Some (token_of c, rest).
Proof.
  destruct c; cbn [driver_ok]; intros H; try contradiction; try reflexivity.
  unfold cmd_bytes. cbn [command_write fst app decode_token token_of].
  destruct (p =? 0) eqn:E1; [lia|]. destruct (p <? 0x80) eqn:E2; [lia|].
  destruct (p <? 0xc8) eqn:E3; [reflexivity|lia].
Qed.

Lemma decode_cmd_only c :
  bytes_ok c -> (forall rest, decode_token (cmd_bytes c ++ rest) = Some (token_of c, rest)) -> driver_ok c.
Proof.
  intros Hb H. destruct c; cbn [driver_ok]; auto.
  - specialize (H [0x80]). cbn in Hb. unfold u8 in Hb.
    unfold cmd_bytes in H. cbn [command_write fst app decode_token token_of] in H.
    destruct (p =? 0) eqn:E1; [discriminate|].
    destruct (p <? 0x80) eqn:E2; [discriminate|].
    destruct (p <? 0xc8) eqn:E3; [lia|].
    destruct (p =? 0xc8) eqn:E4; [discriminate|].
    destruct (p =? 0xc9) eqn:E5; [discriminate|].
    destruct (p <? 0xe0) eqn:E6; [discriminate|].
    destruct (nth_error param_counts (Z.to_nat (p - 0xe0))) as [n|]; [|discriminate].
    destruct (Nat.leb n (length [128])); discriminate.
  - specialize (H [0]). cbn in H. discriminate.
Qed.

(** ** Nibble arithmetic *)
Definition nibbles_ok (qv : Z * Z) : Prop := 0 <= fst qv <= 7 /\ 0 <= snd qv <= 15.

Lemma set_velocity q v v' : 0 <= q <= 7 -> 0 <= v <= 15 -> 0 <= v' <= 15 ->
  Z.lor (Z.land (q * 16 + v) 0x70) v' = q * 16 + v'.
Proof.
  intros Hq Hv Hv'.
  assert (E : forallb (fun x => forallb (fun y => Z.eqb (Z.lor (Z.land x 0x70) y) (x / 16 * 16 + y)) (zrange 16)) (zrange 128) = true)
    by (vm_compute; reflexivity).
  pose proof (sweep2 _ _ _ E (q * 16 + v) v' ltac:(lia) ltac:(lia)) as H.
  cbv beta in H. apply Z.eqb_eq in H. rewrite H. lia.
Qed.
Lemma set_quant q v q' : 0 <= q <= 7 -> 0 <= v <= 15 -> 0 <= q' <= 7 ->
  Z.lor (Z.land (q * 16 + v) 0x0F) (as_u 8 (Z.shiftl q' 4)) = q' * 16 + v.
Proof.
  intros Hq Hv Hv'.
  assert (E : forallb (fun x => forallb (fun y => Z.eqb (Z.lor (Z.land x 0x0F) (as_u 8 (Z.shiftl y 4))) (y * 16 + x mod 16)) (zrange 8)) (zrange 128) = true)
    by (vm_compute; reflexivity).
  pose proof (sweep2 _ _ _ E (q * 16 + v) q' ltac:(lia) ltac:(lia)) as H.
  cbv beta in H. apply Z.eqb_eq in H. rewrite H. lia.
Qed.

Lemma requested_vs_spec pc svs :
  in_range 0 15 (velocity pc) -> in_range 0 7 (sustain pc) ->
  (forall qv, svs = Some qv -> nibbles_ok qv) ->
  requested_vs pc (option_map pack svs) =
  match positive (sustain pc), positive (velocity pc) with
  | None, None => None
  | s, v => Some (pack (oelse s (fst (oelse svs (7, 13))), oelse v (snd (oelse svs (7, 13)))))
  end.
Proof.
  intros Hv Hs Hn.
  assert (Hqv : nibbles_ok (oelse svs (7, 13))).
  { destruct svs as [qv|]; simpl; [auto|]. unfold nibbles_ok; simpl; lia. }
  assert (E0 : oelse (option_map pack svs) 0x7d = pack (oelse svs (7, 13))).
  { destruct svs; reflexivity. }
  unfold requested_vs. rewrite E0. clear E0.
  destruct (oelse svs (7, 13)) as [q0 v0]. destruct Hqv as [Hq0 Hv0]. cbn [fst snd] in *.
  unfold pack. cbn [fst snd].
  destruct (velocity pc) as [v|], (sustain pc) as [s|]; cbn [is_some orb positive in_range oelse fst snd] in *.
  - destruct (0 <? v) eqn:Ev, (0 <? s) eqn:Es; cbn [oelse fst snd].
    + rewrite set_velocity, set_quant by lia. reflexivity.
    + rewrite set_velocity by lia. reflexivity.
    + rewrite set_quant by lia. reflexivity.
    + reflexivity.
  - destruct (0 <? v) eqn:Ev; cbn [oelse]; [|reflexivity]. rewrite set_velocity by lia. reflexivity.
  - destruct (0 <? s) eqn:Es; cbn [oelse]; [|reflexivity]. rewrite set_quant by lia. reflexivity.
  - reflexivity.
Qed.

Lemma prescribed_vs_nibbles pc svs qv :
  in_range 0 15 (velocity pc) -> in_range 0 7 (sustain pc) ->
  (forall qv, svs = Some qv -> nibbles_ok qv) ->
  prescribed_vs svs pc = Some qv -> nibbles_ok qv.
Proof.
  intros Hv Hs Hn H. unfold prescribed_vs in H.
  assert (Hqv : nibbles_ok (oelse svs (7, 13))).
  { destruct svs as [x|]; simpl; [auto|]. unfold nibbles_ok; simpl; lia. }
  assert (Hs' : forall x, positive (sustain pc) = Some x -> 0 <= x <= 7).
  { unfold positive. destruct (sustain pc) as [s|]; [|discriminate]. destruct (0 <? s); [|discriminate].
    intros x [= <-]. exact Hs. }
  assert (Hv' : forall x, positive (velocity pc) = Some x -> 0 <= x <= 15).
  { unfold positive. destruct (velocity pc) as [s|]; [|discriminate]. destruct (0 <? s); [|discriminate].
    intros x [= <-]. exact Hv. }
  destruct (oelse svs (7, 13)) as [q0 v0]. destruct Hqv as [Hq0 Hv0]. cbn [fst snd] in *.
  destruct (positive (sustain pc)) as [s|] eqn:Es; [specialize (Hs' s eq_refl)|];
  destruct (positive (velocity pc)) as [v|] eqn:Ev; try specialize (Hv' v eq_refl);
  destruct (is_note (cmd pc)); destruct svs; cbn [oelse] in H; try discriminate;
  injection H as <-; unfold nibbles_ok; cbn [fst snd oelse]; lia.
Qed.

(** The writer's tracked byte and the byte it emits. *)
Lemma vs_part_spec pc svs :
  in_range 0 15 (velocity pc) -> in_range 0 7 (sustain pc) ->
  (forall qv, svs = Some qv -> nibbles_ok qv) ->
  fst (vs_part pc (option_map pack svs)) = option_map pack (prescribed_vs svs pc) /\
  (snd (vs_part pc (option_map pack svs)) = None ->
     option_map pack (prescribed_vs svs pc) = option_map pack svs) /\
  (forall v, snd (vs_part pc (option_map pack svs)) = Some v ->
     option_map pack (prescribed_vs svs pc) = Some v /\ needs_dur pc).
Proof.
  intros Hv Hs Hn. unfold vs_part. rewrite requested_vs_spec by auto.
  unfold prescribed_vs, needs_dur.
  destruct (oelse svs (7, 13)) as [q0 v0] eqn:E0.
  destruct (positive (sustain pc)) as [s|] eqn:Es; destruct (positive (velocity pc)) as [v|] eqn:Ev;
  destruct (is_note (cmd pc)) eqn:En; destruct svs as [[q1 v1]|]; cbn [oelse option_map fst snd] in *;
  try (destruct (negb _) eqn:E); cbn [fst snd];
  (apply conj; [|apply conj; [intros Hx|intros x Hx]]);
  try discriminate; try reflexivity;
  try (injection Hx as <-; apply conj; [|first [left; reflexivity | right; left; discriminate
         | right; right; discriminate]]);
  try reflexivity;
  try (injection E0 as <- <-; reflexivity);
  try (apply negb_false_iff, Z.eqb_eq in E; congruence).
Qed.

(** ** C02 *)
Definition token_event (t : token) : bool :=
  match t with TEnd | TDuration _ _ => false | _ => true end.
Lemma token_of_event c : token_event (token_of c) = true.
Proof. destruct c; reflexivity. Qed.

Lemma play_token fuel bytes dur vs t r :
  decode_token bytes = Some (t, r) -> token_event t = true ->
  play (S fuel) bytes dur vs =
  match play fuel r dur vs with
  | Some (es, r') => Some (mk_event t dur vs :: es, r')
  | None => None
  end.
Proof. intros H Ht. cbn [play]. rewrite H. destruct t; try discriminate; reflexivity. Qed.

Lemma cmd_bytes_ge c : driver_ok c -> exists x r, cmd_bytes c = x :: r /\ 0x80 <= x.
Proof. destruct c; intros H; try contradiction; eexists _, _; (split; [reflexivity|]); cbn in *; lia. Qed.

Lemma play_list_bytes l :
  forall running dur pdur svs rest fuel,
  well_formed_from running l ->
  (running = true -> 1 <= dur <= 127 /\ pdur = Some dur) ->
  (running = false -> dur = 0 \/ dur = 0xff) ->
  (forall qv, svs = Some qv -> nibbles_ok qv) ->
  (length (list_bytes l dur (option_map pack svs)) < fuel)%nat ->
  play fuel (list_bytes l dur (option_map pack svs) ++ 0 :: rest) pdur (option_map pack svs)
  = Some (prescribed l pdur svs, rest).
Proof.
  induction l as [|pc l IH]; intros running dur pdur svs rest fuel Hwf Hrun Hnrun Hn Hfuel.
  - cbn [list_bytes app prescribed length] in *. destruct fuel as [|fuel]; [lia|]. reflexivity.
  - cbn [well_formed_from] in Hwf. destruct Hwf as ((Hb & Hd & Hdr & Hvr & Hsr) & Hneed & Hwf).
    cbn [list_bytes prescribed] in *.
    destruct (vs_part_spec pc svs Hvr Hsr Hn) as (Hv1 & Hv2 & Hv3).
    unfold pcmd_bytes in *. rewrite <- !app_assoc in *. rewrite !app_length in Hfuel.
    set (running' := match duration pc with Some d => 0 <? d | None => running end) in *.
    set (dur' := fst (dur_part pc dur)) in *.
    (* new state relations *)
    assert (Hrun' : running' = true -> 1 <= dur' <= 127 /\ prescribed_dur pdur pc = Some dur').
    { unfold running', dur', prescribed_dur, dur_part, positive. intros Hr.
      destruct (duration pc) as [d|]; cbn [in_range] in Hdr.
      - rewrite Hr. cbn [or_else]. destruct (negb (d =? dur)) eqn:E; cbn [fst].
        + split; [lia|reflexivity].
        + replace dur with d by lia. split; [lia|reflexivity].
      - cbn [fst or_else]. apply Hrun, Hr. }
    assert (Hnrun' : running' = false -> dur' = 0 \/ dur' = 0xff).
    { unfold running', dur', dur_part. intros Hr.
      destruct (duration pc) as [d|]; cbn [in_range] in Hdr.
      - destruct (negb (d =? dur)) eqn:E; cbn [fst]; lia.
      - cbn [fst]. auto. }
    assert (Hn' : forall qv, prescribed_vs svs pc = Some qv -> nibbles_ok qv)
      by (intros qv; apply prescribed_vs_nibbles; auto).
    assert (Hcmd : forall fuel' tail, (length (cmd_bytes (cmd pc)) + length (list_bytes l dur' (option_map pack (prescribed_vs svs pc))) < fuel')%nat ->
      tail = list_bytes l dur' (option_map pack (prescribed_vs svs pc)) ++ 0 :: rest ->
      play fuel' (cmd_bytes (cmd pc) ++ tail) (prescribed_dur pdur pc) (option_map pack (prescribed_vs svs pc))
      = Some (mk_event (token_of (cmd pc)) (prescribed_dur pdur pc) (option_map pack (prescribed_vs svs pc))
              :: prescribed l (prescribed_dur pdur pc) (prescribed_vs svs pc), rest)).
    { intros fuel' tail Hf ->. destruct fuel' as [|fuel']; [lia|].
      destruct (cmd_bytes_ge (cmd pc) Hd) as (x & r & Hx & _).
      assert (Hlen : (1 <= length (cmd_bytes (cmd pc)))%nat) by (rewrite Hx; cbn [length]; lia).
      erewrite play_token; [|apply decode_cmd, Hd|apply token_of_event].
      erewrite IH; [reflexivity| exact Hwf | exact Hrun' | exact Hnrun' | exact Hn' | lia]. }
    destruct (cmd_bytes_ge (cmd pc) Hd) as (x & r & Hx & Hx80).
    rewrite Hv1 in *. unfold head_bytes in *.
    destruct (snd (vs_part pc (option_map pack svs))) as [v|] eqn:Evw; cbn [is_some] in *.
    + (* a velocity byte is written: a duration byte too *)
      destruct (Hv3 v eq_refl) as [Hvv Hnd]. specialize (Hneed Hnd).
      destruct (Hrun' Hneed) as [Hd' Hpd].
      assert (Hvr' : 0 <= v < 0x80).
      { destruct (prescribed_vs svs pc) as [qv|]; [|discriminate]. specialize (Hn' qv eq_refl).
        destruct Hn' as [? ?]. injection Hvv as <-. unfold pack. lia. }
      assert (Hhead : match snd (dur_part pc dur) with Some d => [d] | None => [dur] end = [dur']).
      { unfold dur', dur_part, running' in *. destruct (duration pc) as [d|]; [|reflexivity].
        destruct (negb (d =? dur)) eqn:E; cbn [fst snd]; [|reflexivity].
        rewrite Hneed. reflexivity. }
      rewrite Hhead in *. cbn [app length] in *. destruct fuel as [|fuel]; [lia|].
      cbn [play decode_token].
      destruct (dur' =? 0) eqn:E0; [lia|]. destruct (dur' <? 0x80) eqn:E1; [|lia].
      destruct (v <? 0x80) eqn:E2; [|lia].
      rewrite <- Hpd, <- Hvv. apply Hcmd; [lia|reflexivity].
    + rewrite <- (Hv2 eq_refl). destruct (snd (dur_part pc dur)) as [d|] eqn:Edw.
      * (* only a duration byte *)
        assert (Hd1 : d = dur' /\ running' = true).
        { unfold dur', dur_part, running' in *. destruct (duration pc) as [d0|]; [|discriminate].
          destruct (negb (d0 =? dur)) eqn:E; cbn [fst snd] in *; [|discriminate].
          destruct (0 <? d0); [|discriminate]. injection Edw as ->. auto. }
        destruct Hd1 as [-> Hr']. destruct (Hrun' Hr') as [Hd' Hpd].
        cbn [app length] in *. destruct fuel as [|fuel]; [lia|].
        cbn [play decode_token].
        destruct (dur' =? 0) eqn:E0; [lia|]. destruct (dur' <? 0x80) eqn:E1; [|lia].
        pose proof (Hcmd fuel _ ltac:(lia) eq_refl) as Hc.
        rewrite Hx in Hc |- *. cbn [app] in Hc |- *.
        destruct (x <? 0x80) eqn:E2; [lia|].
        rewrite <- Hpd. exact Hc.
      * (* nothing before the command *)
        assert (Hpd : prescribed_dur pdur pc = pdur).
        { unfold prescribed_dur, positive. unfold dur', dur_part, running' in *.
          destruct (duration pc) as [d0|] eqn:Ed0; [|reflexivity].
          destruct (0 <? d0) eqn:E0; [|reflexivity].
          destruct (negb (d0 =? dur)) eqn:E; cbn [fst snd] in *; [discriminate|].
          cbn [or_else in_range] in *. symmetry. assert (d0 = dur) as -> by lia.
          destruct running; [apply Hrun; reflexivity|]. destruct (Hnrun eq_refl); lia. }
        cbn [app length] in *. rewrite <- Hpd. rewrite Hpd at 2 3.
        pose proof (Hcmd fuel _ ltac:(lia) eq_refl) as Hc. rewrite Hpd in Hc. rewrite Hpd. exact Hc.
Qed.

Lemma track_write_plays l rest :
  well_formed l ->
  play_stream (fst (track_write l [] []) ++ 0 :: rest) = Some (prescribed l None None, rest).
Proof.
  intros H. unfold track_write, play_stream. rewrite track_write_from_eq. cbn [fst app].
  change (@None Z) with (option_map pack None) at 2 4.
  eapply play_list_bytes with (running := false); eauto; try discriminate.
  rewrite app_length. cbn [length]. change (option_map pack None) with (@None Z). lia.
Qed.

(** ** C03 *)
Lemma list_bytes_app l1 l2 dur vs :
  exists dur' vs', list_bytes (l1 ++ l2) dur vs = list_bytes l1 dur vs ++ list_bytes l2 dur' vs' /\
    forall pos, list_refs (l1 ++ l2) dur vs pos
    = list_refs l1 dur vs pos ++ list_refs l2 dur' vs' (pos + length (list_bytes l1 dur vs)).
Proof.
  revert dur vs; induction l1 as [|pc l1 IH]; intros dur vs.
  - exists dur, vs. split; [reflexivity|]. intros pos. cbn. rewrite Nat.add_0_r. reflexivity.
  - cbn [app list_bytes list_refs]. edestruct IH as (d' & v' & H1 & H2). exists d', v'.
    split; [rewrite H1, app_assoc; reflexivity|]. intros pos.
    rewrite H2, app_assoc, app_length, Nat.add_assoc. reflexivity.
Qed.

Lemma list_refs_length l dur vs pos : length (list_refs l dur vs pos) = length (call_loops_of l).
Proof.
  revert dur vs pos; induction l as [|pc l IH]; intros; [reflexivity|].
  cbn [list_refs call_loops_of flat_map]. rewrite !app_length, IH. f_equal.
  destruct (cmd pc); reflexivity.
Qed.
Lemma list_refs_targets l dur vs pos : map target_track (list_refs l dur vs pos) = map fst (call_loops_of l).
Proof.
  revert dur vs pos; induction l as [|pc l IH]; intros; [reflexivity|].
  cbn [list_refs call_loops_of flat_map]. rewrite !map_app, IH. f_equal.
  destruct (cmd pc); reflexivity.
Qed.

Lemma track_write_refs l out loops out' loops' :
  track_write l out loops = (out', loops') ->
  (exists refs, loops' = loops ++ refs /\ map target_track refs = map fst (call_loops_of l)) /\
  forall pre pc post t n, l = pre ++ pc :: post -> cmd pc = CallLoop t n ->
  exists before after p,
    out' = before ++ [0xef; 0x00; 0xd0; n] ++ after /\
    before ++ [0xef; 0x00; 0xd0; n] = fst (track_write (pre ++ [pc]) out []) /\
    p = S (length before) /\
    nth_error loops' (length loops + length (call_loops_of pre)) = Some (mk_ref t p).
Proof.
  unfold track_write. rewrite !track_write_from_eq. intros [= <- <-]. split.
  - eexists. split; [reflexivity|]. apply list_refs_targets.
  - intros pre pc post t n -> Hc.
    replace (pre ++ pc :: post) with ((pre ++ [pc]) ++ post) by (rewrite <- app_assoc; reflexivity).
    destruct (list_bytes_app (pre ++ [pc]) post 0xff None) as (d1 & v1 & B1 & R1).
    destruct (list_bytes_app pre [pc] 0xff None) as (d2 & v2 & B2 & R2).
    rewrite track_write_from_eq. cbn [fst].
    rewrite B1, R1, B2, R2.
    cbn [list_bytes list_refs]. rewrite !app_nil_r. unfold pcmd_bytes. rewrite Hc.
    change (cmd_bytes (CallLoop t n)) with [0xef; 0x00; 0xd0; n].
    exists (out ++ list_bytes pre 0xff None ++ head_bytes pc d2 v2), (list_bytes post d1 v1).
    eexists. split; [rewrite <- !app_assoc; reflexivity|].
    split; [rewrite <- !app_assoc; reflexivity|]. split; [reflexivity|].
    rewrite nth_error_app2 by lia. rewrite nth_error_app1.
    2:{ rewrite app_length, list_refs_length. cbn. lia. }
    rewrite nth_error_app2 by (rewrite list_refs_length; lia).
    rewrite list_refs_length.
    replace (length loops + length (call_loops_of pre) - length loops - length (call_loops_of pre))%nat with O by lia.
    cbn [cmd_ref nth_error app]. do 2 f_equal. rewrite !app_length. lia.
Qed.

(** ** C04 *)
Lemma set_sustain_spec n m v s v2 s2 p :
  0 <= n <= 255 -> 0 <= m <= 255 -> 0 < n + m ->
  set_sustain (mk_pcmd (Some n) v s (Note p)) (mk_pcmd (Some m) v2 s2 Rest) =
  if ((n * 8) mod (n + m) =? 0) || (m * 16 <? n)
  then Ok (true, mk_pcmd (Some ((n + m) mod 256)) v (Some (Z.min 7 (n * 8 / (n + m)))) (Note p))
  else Ok (false, mk_pcmd (Some n) v s (Note p)).
Proof.
  intros Hn Hm Hp. cbn [set_sustain cmd duration velocity sustain or_panic bind].
  destruct (n + m =? 0) eqn:E; [lia|].
  destruct (((n * 8) mod (n + m) =? 0) || (m * 16 <? n)); [|reflexivity].
  rewrite (Z.min_comm 7). unfold as_u. change (2 ^ 8) with 256.
  assert (0 <= n * 8 / (n + m) <= 8).
  { split; [apply Z.div_pos; lia|]. apply Z.lt_succ_r, Z.div_lt_upper_bound; lia. }
  generalize dependent (n * 8 / (n + m)); intros qq Hqq.
  rewrite (Z.mod_small qq) by lia. reflexivity.
Qed.

Lemma set_sustain_fold n m v s v2 s2 p c :
  1 <= n <= 127 -> 1 <= m <= 127 ->
  set_sustain (mk_pcmd (Some n) v s (Note p)) (mk_pcmd (Some m) v2 s2 Rest) = Ok (true, c) ->
  exists q, c = mk_pcmd (Some (n + m)) v (Some q) (Note p) /\ 0 <= q <= 7 /\ (q * (n + m) = 8 * n \/ (q = 7 /\ 16 * m < n)).
Proof.
  intros Hn Hm. rewrite set_sustain_spec by lia.
  destruct ((n * 8) mod (n + m) =? 0) eqn:E1; cbn [orb].
  - intros [= <-]. eexists. rewrite Z.mod_small by lia. split; [reflexivity|].
    assert (Hq0 : 0 <= n * 8 / (n + m)) by (apply Z.div_pos; lia).
    assert (H : n * 8 / (n + m) * (n + m) = n * 8).
    { apply Z.eqb_eq in E1. pose proof (Z.div_mod (n * 8) (n + m) ltac:(lia)) as Hdm. rewrite E1 in Hdm.
      rewrite Z.mul_comm, <- (Z.add_0_r ((n + m) * _)). symmetry; exact Hdm. }
    clear E1; generalize dependent (n * 8 / (n + m)); intros qq Hq0 H.
    assert (qq < 8) by nia.
    split; [lia|]. left. rewrite Z.min_r by lia. lia.
  - destruct (m * 16 <? n) eqn:E2; [|discriminate].
    intros [= <-]. eexists. rewrite Z.mod_small by lia. split; [reflexivity|].
    assert (n * 8 / (n + m) = 7).
    { symmetry. apply Z.div_unique with (r := n * 8 - 7 * (n + m)); lia. }
    rewrite H. change (Z.min 7 7) with 7. clear H E1. split; [lia|]. right. lia.
Qed.

Lemma set_sustain_skip n m v s v2 s2 p c :
  1 <= n <= 127 -> 1 <= m <= 127 ->
  set_sustain (mk_pcmd (Some n) v s (Note p)) (mk_pcmd (Some m) v2 s2 Rest) = Ok (false, c) ->
  c = mk_pcmd (Some n) v s (Note p) /\ n <= 16 * m /\ forall q, q * (n + m) <> 8 * n.
Proof.
  intros Hn Hm. rewrite set_sustain_spec by lia.
  destruct ((n * 8) mod (n + m) =? 0) eqn:E1; cbn [orb]; [discriminate|].
  destruct (m * 16 <? n) eqn:E2; [discriminate|]. intros [= <-]. split; [reflexivity|].
  split; [lia|]. intros q Hq. apply Z.eqb_neq in E1. apply E1.
  replace (n * 8) with (q * (n + m)) by lia. apply Z.mod_mul. lia.
Qed.

Lemma set_sustain_other pc next :
  (forall p, cmd pc <> Note p) \/ cmd next <> Rest -> set_sustain pc next = Ok (false, pc).
Proof.
  intros H. unfold set_sustain. destruct (cmd pc); try reflexivity.
  destruct (cmd next); try reflexivity. destruct H as [H|H]; [specialize (H p)|]; congruence.
Qed.

(** ** Statements used by PropCodec.v *)
Lemma command_encoding c out loops :
  bytes_ok c ->
  exists bs, fst (command_write c out loops) = out ++ bs /\
    ((forall rest, decode_token (bs ++ rest) = Some (token_of c, rest)) <-> driver_ok c).
Proof.
  intros Hb. exists (cmd_bytes c). rewrite command_write_eq. split; [reflexivity|]. split.
  - apply decode_cmd_only; auto.
  - intros H rest. apply decode_cmd; auto.
Qed.

Lemma token_of_injective c c' :
  token_of c = token_of c' ->
  c = c' \/ exists t t' n, c = CallLoop t n /\ c' = CallLoop t' n.
Proof.
  destruct c; destruct c'; cbn [token_of]; intros H; try discriminate;
    try (injection H; intros; subst; left; reflexivity); try (left; reflexivity).
  injection H; intros; subst. right; eauto.
Qed.

Lemma encoding_injective c c' out loops loops' :
  driver_ok c -> driver_ok c' ->
  fst (command_write c out loops) = fst (command_write c' out loops') ->
  c = c' \/ exists t t' n, c = CallLoop t n /\ c' = CallLoop t' n.
Proof.
  intros H H' E. rewrite !command_write_eq in E. cbn [fst] in E. apply app_inv_head in E.
  apply token_of_injective.
  pose proof (decode_cmd c [] H) as D. pose proof (decode_cmd c' [] H') as D'.
  rewrite E in D. congruence.
Qed.

Lemma set_sustain_pair n m v s v2 s2 p flag c :
  1 <= n <= 127 -> 1 <= m <= 127 ->
  set_sustain (mk_pcmd (Some n) v s (Note p)) (mk_pcmd (Some m) v2 s2 Rest) = Ok (flag, c) ->
  if flag
  then exists q, c = mk_pcmd (Some (n + m)) v (Some q) (Note p) /\ 0 <= q <= 7 /\
         (q * (n + m) = 8 * n \/ (q = 7 /\ 16 * m < n))
  else c = mk_pcmd (Some n) v s (Note p) /\ n <= 16 * m /\ forall q, q * (n + m) <> 8 * n.
Proof.
  intros Hn Hm H. destruct flag; [eapply set_sustain_fold|eapply set_sustain_skip]; eauto.
Qed.
Lemma set_sustain_total n m v s v2 s2 p :
  1 <= n <= 127 -> 1 <= m <= 127 ->
  exists flag c, set_sustain (mk_pcmd (Some n) v s (Note p)) (mk_pcmd (Some m) v2 s2 Rest) = Ok (flag, c).
Proof. intros. rewrite set_sustain_spec by lia. destruct (_ || _); eauto. Qed.
Lemma fold_unplayable :
  exists n m v s p c,
  1 <= n <= 127 /\ 1 <= m <= 127 /\
  set_sustain (mk_pcmd (Some n) v s (Note p)) (mk_pcmd (Some m) None None Rest) = Ok (true, c) /\
  duration c = Some 192 /\
  play_stream (fst (track_write [c] [] []) ++ [0]) =
    Some ([mk_event (TNote 192) None None; mk_event (TNote p) (Some 79) None], []).
Proof.
  exists 96, 96, (Some 15), (Some 7), 0xa4. eexists. repeat split; try lia; vm_compute; reflexivity.
Qed.
