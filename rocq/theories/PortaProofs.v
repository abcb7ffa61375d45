(** PortaProofs.v: when pitch slides are made and how long they last (C71). *)
From Coq Require Import ZArith List Bool Lia ZifyBool ZifyNat.
From Verif Require Import Base F32 Messages Command Track ProofLib SpecTime SpecNspc SplitProofs DurationProofs
  CodecProofs SpecVoice TrackProofs SlideProofs SpecPorta.

Lemma rest_or_not b tpb cmds e t cmds' e' : ppq_ok tpb -> 0 <= e -> 0 <= t < 2 ^ 31 ->
  24 * (t - e) <= 32511 * tpb -> t - e <= 2 ^ 24 -> insert_rest b cmds e t tpb = Ok (cmds', e') ->
  (cmds' = cmds /\ 24 * (t - e) < tpb) \/ (e < t /\ exists l lc, cmds' = cmds ++ l ++ [lc] /\ Forall quiet (l ++ [lc]) /\ cmd lc = Rest).
Proof.
  intros Hg He Ht H2 H3. unfold insert_rest. pose proof Hg as Hg1. unfold ppq_ok in Hg1.
  destruct (e <? t) eqn:E; [|intros [= <- _]; left; split; [reflexivity|lia]].
  assert (Hgap : gap_ok tpb (t - e)) by (split; lia).
  pose proof (quantized_floor_bound (t - e) tpb Hg1 ltac:(lia) (gap_div tpb (t - e) Hg Hgap)) as HQ.
  destruct (gap_duration tpb b (t - e) false Hg Hgap) as (d & -> & D1 & _ & D3 & D4 & D5). cbn zeta in *. cbn [bind].
  intros H. inv_bind H. injection H as <- _. clear Ha.
  assert (Hq : forall n, Forall quiet (repeat (rest_cmd 127) n)).
  { intros n. apply Forall_forall. intros x Hx. apply repeat_spec in Hx. subst x. split; reflexivity. }
  destruct (0 <? d_length d) eqn:E2.
  - right. split; [lia|]. exists (repeat (rest_cmd 127) (Z.to_nat (overflow_count d))), (rest_cmd (d_length d)).
    rewrite app_assoc. split; [reflexivity|]. split; [|reflexivity]. apply Forall_app. split; [apply Hq|]. repeat constructor.
  - assert (quantized_length (t - e) tpb false = 0) by lia. assert (overflow_count d = 0) by lia.
    left. rewrite H0. cbn [Z.to_nat repeat]. rewrite app_nil_r. split; [reflexivity|].
    assert (24 * (t - e) / tpb <= 0) as Hd by lia.
    pose proof (Z.div_mod (24 * (t - e)) tpb ltac:(lia)). pose proof (Z.mod_pos_bound (24 * (t - e)) tpb ltac:(lia)). nia.
Qed.

Lemma slide_time tpb b p d : ppq_ok tpb -> 0 <= p < 65536 -> get_duration b p tpb true = Ok d ->
  24 * p <= 127 * tpb -> 24 * p <= d_length d * tpb < 24 * p + tpb.
Proof.
  intros Hg Hp H Hs. unfold ppq_ok in Hg.
  rewrite get_duration_value in H by (try lia; apply Z.div_lt_upper_bound; lia). injection H as <-.
  destruct (quantized_exact p tpb Hg ltac:(lia) ltac:(lia)) as (_ & HQ).
  assert (Hd : quantized_length p tpb true * tpb < 24 * p + tpb /\ 24 * p <= quantized_length p tpb true * tpb).
  { rewrite HQ. pose proof (Z.div_mod (24 * p + tpb - 1) tpb ltac:(lia)). pose proof (Z.mod_pos_bound (24 * p + tpb - 1) tpb ltac:(lia)). nia. }
  pose proof (quantized_nonneg p tpb true) as Hn. set (q := quantized_length p tpb true) in *. clearbody q.
  assert (q <= 127) by nia. destruct (split_length_spec q (q * tpb / 24) ltac:(lia)) as (A & _ & B & C & _).
  assert (d_length (split_length q (q * tpb / 24)) = q); [|lia].
  assert (overflow_count (split_length q (q * tpb / 24)) <= 0); [|lia].
  unfold split_length. destruct (127 <? q) eqn:E; [lia|]. cbn [overflow_count]. lia.
Qed.

(** The invariant. *)
Definition ended (tpb : Z) (last : option Z) (s : tstate) : Prop :=
  match last with
  | None => commands s = [] \/ exists lc, last_opt (commands s) = Some lc /\ duration lc = None
  | Some off => off <= last_note_end s /\ 24 * (last_note_end s - off) < tpb /\
      exists lc d, last_opt (commands s) = Some lc /\ cmd lc <> Rest /\ duration lc = Some d
  end.
Definition pinv (tpb : Z) (sw : bool) (coarse fine : Z) (last : option Z) (open : option asked) (s : tstate) (done : list asked) : Prop :=
  portamento s = sw /\ port_time s = 256 * coarse + fine /\ 0 <= coarse < 128 /\ 0 <= fine < 128 /\
  Forall2 (fun h a => slide_as_asked tpb (h_slide h) (h_tied h) a) (w_heads (the_walk (commands s))) done /\
  match open with
  | None => ended tpb last s /\ no_slide (the_walk (commands s)) /\ w_last_slide (the_walk (commands s)) = false
  | Some a => slide_as_asked tpb (w_slide (the_walk (commands s))) (w_last_slide (the_walk (commands s))) a
  end.

Lemma last_opt_app {A} (l : list A) x : last_opt (l ++ [x]) = Some x.
Proof.
  induction l as [|y l IH]; [reflexivity|]. cbn [app]. destruct (l ++ [x]) eqn:E; [destruct l; discriminate|]. exact IH.
Qed.

Lemma p_on tpb b sw coarse fine last s done k v t s' :
  ppq_ok tpb -> pinv tpb sw coarse fine last None s done -> 0 <= last_note_end s -> 0 <= t < 2 ^ 31 ->
  24 * (t - last_note_end s) <= 32511 * tpb -> t - last_note_end s <= 2 ^ 24 -> on_note_on b s k v t tpb = Ok s' ->
  pinv tpb sw coarse fine last (Some (mk_asked sw (256 * coarse + fine) last t true)) s' done.
Proof.
  intros Hg (P1 & P2 & P3 & P4 & P5 & P6 & P7 & P8) He Ht G1 G2 H. unfold on_note_on in H. inv_bind H. destruct a as [c1 e]. inv_bind H. rename a into c2.
  destruct (note_start s); [discriminate|]. injection H as <-. unfold pinv. cbn [portamento port_time commands last_note_end].
  split; [assumption|]. split; [assumption|]. split; [assumption|]. split; [assumption|].
  destruct (rest_or_not _ _ _ _ _ _ _ Hg He Ht G1 G2 Ha) as [(-> & Hsmall)|(Hlt & l & lc & -> & Hq & Hr)].
  - unfold push_slide in Ha0. rewrite P1 in Ha0.
    assert (Hnone : forall a, (a_on a = false \/ a_after a = None) -> commands s = c2 ->
      Forall2 (fun h a => slide_as_asked tpb (h_slide h) (h_tied h) a) (w_heads (the_walk c2)) done /\
      slide_as_asked tpb (w_slide (the_walk c2)) (w_last_slide (the_walk c2)) a).
    { intros a Hn <-. split; [assumption|]. unfold no_slide in P7. rewrite P7. cbn [slide_as_asked]. tauto. }
    destruct sw; [|injection Ha0 as <-; apply Hnone; [left; reflexivity|reflexivity]].
    destruct last as [off|].
    + destruct P6 as (E1 & E2 & lc & d & E3 & E4 & E5). rewrite E3 in Ha0. inv_bind Ha0. inv_bind Ha0.
      unfold create_pitch_slide in Ha0. rewrite E5 in Ha0.
      assert (HS : Ok (commands s ++ [mk_pcmd None None None (PitchSlide (d - Z.min (d_length a) d) (d_length a) a0)]) = Ok c2).
      { destruct (cmd lc); try exact Ha0. congruence. }
      injection HS as <-. rewrite the_walk_app. cbn [fold_left walk_step w_heads w_slide w_last_slide velocity slide_cmd cmd].
      split; [assumption|]. cbn [slide_as_asked a_on a_after a_start a_time a_plain cmd]. split; [reflexivity|].
      split; [exists off; split; [reflexivity|lia]|]. split; [|reflexivity].
      do 3 eexists. split; [reflexivity|]. intros HS. rewrite <- P2 in *. apply (slide_time tpb b); auto. rewrite P2. lia.
    + destruct P6 as [E|(lc & E & Ed)].
      * rewrite E in Ha0. injection Ha0 as <-. apply Hnone; [right; reflexivity|exact E].
      * rewrite E in Ha0. inv_bind Ha0. inv_bind Ha0. unfold create_pitch_slide in Ha0. rewrite Ed in Ha0.
        assert (commands s = c2) as Hs by (destruct (cmd lc); injection Ha0 as <-; reflexivity).
        apply Hnone; [right; reflexivity|exact Hs].
  - assert (c2 = commands s ++ l ++ [lc]) as ->.
    { unfold push_slide in Ha0. destruct (portamento s); [|congruence]. rewrite app_assoc, last_opt_app in Ha0.
      inv_bind Ha0. inv_bind Ha0. unfold create_pitch_slide in Ha0. rewrite Hr in Ha0. injection Ha0 as <-. now rewrite app_assoc. }
    rewrite the_walk_app. destruct (walk_quiet _ (the_walk (commands s)) Hq) as (Q1 & Q2 & Q3). cbn zeta in *. rewrite Q1, Q2, Q3.
    split; [assumption|]. unfold no_slide in P7. rewrite P7. cbn [slide_as_asked a_on a_after a_start].
    split; [destruct l; reflexivity|]. destruct last as [off|]; [|auto]. right. right. exists off. split; [reflexivity|].
    destruct P6 as (E1 & _). lia.
Qed.

Lemma p_off tpb b sw coarse fine last a s done k t s' :
  ppq_ok tpb -> pinv tpb sw coarse fine last (Some a) s done -> note_start s = Some (last_note_end s) ->
  0 <= last_note_end s < t -> t < 2 ^ 31 -> 24 * (t - last_note_end s) <= 32511 * tpb -> 24 * (t - last_note_end s) < 2 ^ 23 ->
  on_note_off b s k t tpb = Ok s' -> pinv tpb sw coarse fine (Some t) None s' (done ++ [a]).
Proof.
  intros Hg (P1 & P2 & P3 & P4 & P5 & P6) Hst He Ht G1 G2 H. pose proof Hg as Hg1. unfold ppq_ok in Hg1.
  unfold on_note_off in H. rewrite Hst, (arith_exact b 32) in H by lia. cbn [bind] in H.
  assert (Hgap : gap_ok tpb (t - last_note_end s)) by (split; lia).
  destruct (quantized_exact (t - last_note_end s) tpb Hg1 ltac:(lia) G2) as (_ & HQ).
  assert (Hd : 24 * (t - last_note_end s) <= quantized_length (t - last_note_end s) tpb true * tpb < 24 * (t - last_note_end s) + tpb).
  { rewrite HQ. pose proof (Z.div_mod (24 * (t - last_note_end s) + tpb - 1) tpb ltac:(lia)).
    pose proof (Z.mod_pos_bound (24 * (t - last_note_end s) + tpb - 1) tpb ltac:(lia)). nia. }
  destruct (gap_duration tpb b (t - last_note_end s) true Hg Hgap) as (d & Hgd & D1 & D2 & D3 & D4 & D5). cbn zeta in *.
  rewrite Hgd in H. cbn [bind] in H. inv_bind H. inv_bind H. injection H as <-.
  assert (Hc : slide_cmd (mk_pcmd None None None a0) = false /\ a0 <> Rest).
  { destruct (match last_opt (commands s) with Some _ => _ | None => _ end).
    - injection Ha as <-. split; [reflexivity|discriminate].
    - inv_bind Ha. injection Ha as <-. split; [reflexivity|discriminate]. }
  clear Ha. destruct Hc as (Hc & HcR).
  set (q := quantized_length (t - last_note_end s) tpb true) in *. clearbody q.
  rewrite D2 in Ha0. 
  assert (HT : t - last_note_end s <= q * tpb / 24) by (apply Z.div_le_lower_bound; lia).
  assert (HT2 : 24 * (q * tpb / 24) <= q * tpb) by (apply Z.mul_div_le; lia).
  rewrite arith_exact in Ha0 by lia. injection Ha0 as <-.
  set (hd := mk_pcmd (Some (if 0 <? overflow_count d then 127 else d_length d)) (Some (note_velocity s / 8)) (Some 7) a0).
  set (ties := overflow_ties (overflow_count d) (d_length d)).
  assert (Hq : Forall quiet ties).
  { unfold ties, overflow_ties. destruct (0 <? overflow_count d); [|constructor]. apply Forall_app. split; [|repeat constructor].
    apply Forall_forall. intros x Hx. apply repeat_spec in Hx. subst x. split; reflexivity. }
  assert (Hlast : exists lc dd, last_opt (commands s ++ hd :: ties) = Some lc /\ cmd lc <> Rest /\ duration lc = Some dd).
  { unfold ties, overflow_ties. destruct (0 <? overflow_count d).
    - change (hd :: repeat (tie_cmd 127) (Z.to_nat (overflow_count d - 1)) ++ [tie_cmd (d_length d)])
        with ((hd :: repeat (tie_cmd 127) (Z.to_nat (overflow_count d - 1))) ++ [tie_cmd (d_length d)]).
      rewrite app_assoc, last_opt_app. do 2 eexists. split; [reflexivity|]. split; [discriminate|reflexivity].
    - rewrite last_opt_app. do 2 eexists. split; [reflexivity|]. split; [exact HcR|reflexivity]. }
  assert (Hsl : slide_cmd hd = false) by exact Hc.
  assert (W : the_walk (commands s ++ hd :: ties) = fold_left walk_step ties (mk_walk (w_now (the_walk (commands s)) + steps hd) None false
    (w_heads (the_walk (commands s)) ++ [mk_head (w_now (the_walk (commands s))) a0 (note_velocity s / 8) (w_slide (the_walk (commands s))) (w_last_slide (the_walk (commands s)))]))).
  { rewrite the_walk_app. cbn [fold_left]. unfold walk_step at 2. rewrite Hsl. reflexivity. }
  unfold pinv. cbn [portamento port_time commands last_note_end].
  split; [assumption|]. split; [assumption|]. split; [assumption|]. split; [assumption|].
  rewrite W. destruct (walk_quiet ties (mk_walk (w_now (the_walk (commands s)) + steps hd) None false
    (w_heads (the_walk (commands s)) ++ [mk_head (w_now (the_walk (commands s))) a0 (note_velocity s / 8) (w_slide (the_walk (commands s))) (w_last_slide (the_walk (commands s)))])) Hq)
    as (Q1 & Q2 & Q3). cbn zeta in *. unfold no_slide. rewrite Q1, Q2, Q3. cbn [w_heads w_slide w_last_slide].
  split; [apply Forall2_app; [assumption|]; constructor; [exact P6|constructor]|].
  split; [|split; [reflexivity|destruct ties; reflexivity]]. unfold ended. cbn [last_note_end commands].
  split; [lia|]. split; [lia|exact Hlast].
Qed.

Lemma p_setting tpb sw coarse fine last open s done l c e :
  pinv tpb sw coarse fine last open s done -> Forall quiet l -> slide_cmd (plain_cmd c) = false ->
  pinv tpb sw coarse fine None (option_map spoiled open)
    (mk_tstate (commands s ++ l ++ [plain_cmd c]) (note_start s) (note_velocity s) e (portamento s) (port_time s)) done.
Proof.
  intros (P1 & P2 & P3 & P4 & P5 & P6) Hl Hc. unfold pinv. cbn [portamento port_time commands last_note_end].
  split; [assumption|]. split; [assumption|]. split; [assumption|]. split; [assumption|].
  assert (Hq : Forall quiet (l ++ [plain_cmd c])).
  { apply Forall_app. split; [assumption|]. constructor; [split; [reflexivity|assumption]|constructor]. }
  rewrite the_walk_app. destruct (walk_quiet _ (the_walk (commands s)) Hq) as (Q1 & Q2 & Q3). cbn zeta in *.
  assert (Q4 : w_last_slide (fold_left walk_step (l ++ [plain_cmd c]) (the_walk (commands s))) = false) by (rewrite Q3; destruct l; reflexivity).
  unfold no_slide. rewrite Q1, Q2, Q4. split; [assumption|]. destruct open as [a|]; cbn [option_map].
  - destruct (w_slide (the_walk (commands s))); cbn [slide_as_asked spoiled a_on a_after a_start a_time a_plain] in *; tauto.
  - split; [|tauto]. right. exists (plain_cmd c). cbn [commands]. rewrite app_assoc, last_opt_app. split; reflexivity.
Qed.
Lemma p_rests tpb b cmds e t cmds' e' :
  insert_rest b cmds e t tpb = Ok (cmds', e') -> exists l, cmds' = cmds ++ l /\ Forall quiet l.
Proof.
  intros H. unfold insert_rest in H. destruct (e <? t); [|injection H as <- _; exists []; rewrite app_nil_r; auto].
  inv_bind H. inv_bind H. injection H as <- _.
  assert (Hq : forall n, Forall quiet (repeat (rest_cmd 127) n)).
  { intros n. apply Forall_forall. intros x Hx. apply repeat_spec in Hx. subst x. split; reflexivity. }
  destruct (0 <? d_length a).
  - eexists. rewrite <- app_assoc. split; [reflexivity|]. apply Forall_app. split; [apply Hq|]. repeat constructor.
  - eexists. split; [reflexivity|]. apply Hq.
Qed.
Lemma p_port tpb sw coarse fine last open s done sw' coarse' fine' :
  pinv tpb sw coarse fine last open s done -> 0 <= coarse' < 128 -> 0 <= fine' < 128 ->
  pinv tpb sw' coarse' fine' last open
    (mk_tstate (commands s) (note_start s) (note_velocity s) (last_note_end s) sw' (256 * coarse' + fine')) done.
Proof.
  intros (P1 & P2 & P3 & P4 & P5 & P6) H1 H2. unfold pinv. cbn [portamento port_time commands last_note_end].
  repeat (split; [first [reflexivity|assumption]|]). exact P6.
Qed.
Lemma lor_bytes c f : 0 <= c -> 0 <= f < 256 -> Z.lor (c * 256) f = 256 * c + f.
Proof.
  intros Hc Hf. assert (HN : Z.land (c * 2 ^ 8) f = 0).
  { apply Z.bits_inj'. intros i Hi. rewrite Z.land_spec, Z.bits_0. destruct (Z_lt_ge_dec i 8) as [L|L].
    - rewrite Z.mul_pow2_bits_low by lia. reflexivity.
    - replace f with (f mod 2 ^ 8) by (apply Z.mod_small; lia). rewrite Z.mod_pow2_bits_high by lia. apply andb_false_r. }
  change 256 with (2 ^ 8). rewrite <- Z.lxor_lor, <- Z.add_nocarry_lxor by exact HN. lia.
Qed.
Lemma coarse_bits d c f : 0 <= d < 128 -> 0 <= c < 128 -> 0 <= f < 128 ->
  Z.lor (as_u 16 (Z.shiftl d 8)) (Z.land (256 * c + f) 0xFF) = 256 * d + f.
Proof.
  intros Hd Hc Hf. rewrite Z.shiftl_mul_pow2 by lia. unfold as_u. rewrite Z.mod_small by lia.
  change 0xFF with (Z.ones 8). rewrite Z.land_ones by lia. change (2 ^ 8) with 256.
  replace ((256 * c + f) mod 256) with f by (symmetry; rewrite Z.add_comm, Z.mul_comm, Z.mod_add by lia; apply Z.mod_small; lia).
  apply lor_bytes; lia.
Qed.
Lemma fine_bits d c f : 0 <= d < 128 -> 0 <= c < 128 -> 0 <= f < 128 ->
  Z.lor (Z.land (256 * c + f) 0xFF00) d = 256 * c + d.
Proof.
  intros Hd Hc Hf. rewrite <- (lor_bytes c f) by lia. rewrite Z.land_lor_distr_l.
  assert (E1 : Z.land f 0xFF00 = 0).
  { apply Z.bits_inj'. intros i Hi. rewrite Z.land_spec, Z.bits_0. change 0xFF00 with (Z.shiftl 255 8). destruct (Z_lt_ge_dec i 8) as [L|L].
    - rewrite (Z.shiftl_spec_low 255 8 i) by lia. apply andb_false_r.
    - replace f with (f mod 2 ^ 8) by (apply Z.mod_small; lia). rewrite Z.mod_pow2_bits_high by lia. reflexivity. }
  assert (E2 : Z.land (c * 256) 0xFF00 = c * 256).
  { change 0xFF00 with (255 * 2 ^ 8). change 256 with (2 ^ 8). rewrite <- !Z.shiftl_mul_pow2, <- Z.shiftl_land by lia. f_equal.
    change 255 with (Z.ones 8). rewrite Z.land_ones by lia. apply Z.mod_small. lia. }
  rewrite E1, E2, Z.lor_0_r. apply lor_bytes; lia.
Qed.

(** One event. *)
Lemma p_loop tpb tol b tf max_time : ppq_ok tpb -> forall events D prev fin open s notes sw coarse fine last a done,
  voice_from tpb max_time prev fin open events -> tinv tpb tol D prev fin open s notes ->
  tpb + D + loss tpb * Z.of_nat (length events) <= tol -> tpb + loss tpb <= tol ->
  Forall (fun n => n_off n - n_on n <= 2 ^ 18) (notes_from (TrackProofs.sounding open s) events) ->
  pinv tpb sw coarse fine last a s done -> (open = None <-> a = None) ->
  exists s', ofold (track_step b tpb tf) events s = Ok s' /\
    Forall2 (fun h a => slide_as_asked tpb (h_slide h) (h_tied h) a) (w_heads (the_walk (commands s'))) (done ++ asked_from sw coarse fine last a events).
Proof.
  intros Hg. pose proof (loss_range tpb) as HL. induction events as [|[m t] r IH]; intros D prev fin open s notes sw coarse fine last a done HV HI Htol Htol1 HN HP Hoa.
  { exists s. split; [reflexivity|]. cbn [asked_from]. rewrite app_nil_r. apply HP. }
  cbn [voice_from] in HV. destruct HV as (Hm & Ht & HV).
  change (list (message * Z)) with (list tmsg) in *. change (message * Z)%type with tmsg in *.
  cbn [length] in Htol |- *. rewrite Nat2Z.inj_succ, Z.mul_succ_r in Htol.
  rewrite (Z.add_comm (loss tpb * _) (loss tpb)) in Htol.
  assert (Hr0 : 0 <= loss tpb * Z.of_nat (@length tmsg r)) by (apply Z.mul_nonneg_nonneg; lia).
  rewrite !Z.add_assoc in *.
  assert (IH' : forall prev fin open s notes sw coarse fine last a done, voice_from tpb max_time prev fin open r -> tinv tpb tol D prev fin open s notes ->
    Forall (fun n => n_off n - n_on n <= 2 ^ 18) (notes_from (TrackProofs.sounding open s) r) ->
    pinv tpb sw coarse fine last a s done -> (open = None <-> a = None) ->
    exists s', ofold (track_step b tpb tf) r s = Ok s' /\
    Forall2 (fun h a => slide_as_asked tpb (h_slide h) (h_tied h) a) (w_heads (the_walk (commands s'))) (done ++ asked_from sw coarse fine last a r)).
  { intros prev0 fin0 open0 s0 n0 sw0 co0 fi0 la0 a0 done0 HV0 HI0 HN0 HP0 Ho0.
    apply (IH (D + loss tpb) prev0 fin0 open0 s0 n0 sw0 co0 fi0 la0 a0 done0 HV0); auto; [|lia].
    apply tinv_weaken. assumption. }
  specialize (IH (D + loss tpb)).
  assert (Hos : forall o : option (Z * Z), (o = None <-> a = None) -> (o = None <-> option_map spoiled a = None)).
  { intros o Ho. rewrite Ho. destruct a; cbn [option_map]; split; congruence. }
  destruct m as [dt ev data|dt ev|dt ev data|].
  - (* meta *)
    destruct (meta_step tpb tol D prev fin open s notes ev data tf HI) as (s1 & H1 & H2 & H3).
    { intros ->. exact Hm. }
    cbn [ofold track_step]. rewrite H1. cbn [bind].
    assert (HN1 : Forall (fun n => n_off n - n_on n <= 2 ^ 18) (notes_from (TrackProofs.sounding open s1) r)).
    { cbn [notes_from] in HN. unfold TrackProofs.sounding in *. rewrite H3. exact HN. }
    destruct ev; cbn [on_meta] in H1; cbn [asked_from].
    + inv_bind H1. injection H1 as <-. apply (IH' _ _ _ _ notes _ _ _ _ _ _ HV H2 HN1); [|auto].
      exact (p_setting tpb sw coarse fine last a s done [] (Tempo _) (last_note_end s) HP (Forall_nil _) eq_refl).
    + injection H1 as <-. apply (IH' _ _ _ _ notes _ _ _ _ _ _ HV H2 HN1); auto.
  - destruct ev as [ch k v|ch k v|ch k v|ch ctl d|ch p|ch p|ch d|ch]; cbn [ofold track_step].
    + (* NoteOff *)
      destruct open as [[on k']|].
      * destruct HV as (<- & Hlen & Hnear & HV). destruct HI as (Hp & Habs & Hov & Hprev & Hst & Hk & Hvel & HE). subst prev.
        destruct (note_off_step tpb tol D b s k t (last_note_end s) on notes Hg Hst Ht Hk HE ltac:(lia) ltac:(lia) Habs (starts_before _ _ _ _ _ _ _ _ _ _ Hg Hov Habs HE Hlen) Hnear Hvel)
          as (s1 & H1 & H2 & H3 & H4 & H5).
        pose proof (starts_before _ _ _ _ _ _ _ _ _ _ Hg Hov Habs HE Hlen) as Hbefore.
        rewrite H1. cbn [bind].
        assert (HI1 : tinv tpb tol (D + loss tpb) t (Some t) None s1 (notes ++ [mk_vnote on t k (note_velocity s)])).
        { split; [lia|]. split; [assumption|]. split; [exact (overrun_off _ _ _ _ _ _ _ Hov H5)|]. auto. }
        destruct a as [a|]; [|destruct Hoa as (_ & Hoa); discriminate (Hoa eq_refl)].
        cbn [TrackProofs.sounding notes_from] in HN. inversion HN as [|n0 l0 HN0 HN1]; subst n0 l0. cbn [n_off n_on] in HN0.
        pose proof Hg as Hg1. unfold ppq_ok in Hg1. unfold clock_near in Habs. destruct Hnear as (N1 & N2 & N3). pose proof HE as (_ & He0 & _).
        change (2 ^ 18) with 262144 in HN0.
        assert (HP1 : pinv tpb sw coarse fine (Some t) None s1 (done ++ [a])).
        { apply (p_off tpb b sw coarse fine last a s done k t s1 Hg HP Hst); auto; change (2 ^ 23) with 8388608; lia. }
        cbn [asked_from].
        destruct (IH t (Some t) None s1 _ sw coarse fine (Some t) None _ HV HI1 ltac:(lia) ltac:(lia) HN1 HP1 ltac:(tauto)) as (s' & A & B). exists s'.
        split; [exact A|]. now rewrite <- app_assoc in B.
      * pose proof HI as (Hp & Habs & Hov & Hst & HE). unfold on_note_off. rewrite Hst. cbn [bind].
        destruct a as [a|]; [destruct Hoa as (Hoa & _); discriminate (Hoa eq_refl)|]. cbn [asked_from].
        exact (IH' prev fin None s notes sw coarse fine last None done HV HI HN HP Hoa).
    + (* NoteOn *)
      destruct HV as (-> & Hnear & HV). destruct HI as (Hp & Habs & Hov & Hst & HE). destruct Hm as (Hk & Hv).
      destruct (note_on_step tpb tol D b s k v t prev notes Hg Hst Ht Hk Hp HE Habs Hnear)
        as (s1 & H1 & H2 & H3 & H4 & H5 & H6 & H7).
      rewrite H1. cbn [bind].
      assert (HI1 : tinv tpb tol (D + loss tpb) t fin (Some (t, k)) s1 notes).
      { split; [lia|]. split; [assumption|]. split; [apply (overrun_on tpb D prev fin (last_note_end s)); try assumption; [apply HE|apply Hg]|]. rewrite H3. auto. }
      destruct a as [a|]; [destruct Hoa as (Hoa & _); discriminate (Hoa eq_refl)|].
      assert (HP1 : pinv tpb sw coarse fine last (Some (mk_asked sw (256 * coarse + fine) last t true)) s1 done).
      { pose proof Hg as Hg1. unfold ppq_ok in Hg1. unfold clock_near in Habs. destruct Hnear as (N1 & N2 & N3). pose proof HE as (_ & He0 & _).
        apply (p_on tpb b sw coarse fine last s done k v t s1); auto; lia. }
      cbn [asked_from]. apply (IH t fin (Some (t, k)) s1 notes sw coarse fine last _ done HV HI1); auto; [lia| |split; discriminate].
      cbn [TrackProofs.sounding notes_from] in *. rewrite H3. exact HN.
    + cbn [asked_from]. exact (IH' _ _ _ _ notes _ _ _ _ _ _ HV HI HN HP Hoa).
    + (* ControlChange *)
      destruct (control_step tpb tol D b prev fin open s notes ctl d HI Hm) as (s1 & H1 & H2 & H3).
      rewrite H1. cbn [bind].
      assert (HN1 : Forall (fun n => n_off n - n_on n <= 2 ^ 18) (notes_from (TrackProofs.sounding open s1) r)).
      { cbn [notes_from] in HN. unfold TrackProofs.sounding in *. rewrite H3. exact HN. }
      unfold on_control_change in H1. pose proof HP as (Q1 & Q2 & Q3 & Q4 & _). cbn [midi_valid] in Hm. cbn [asked_from].
      destruct (ctl =? 5); [|destruct (ctl =? 7); [|destruct (ctl =? 37); [|destruct (ctl =? 65)]]].
      * rewrite Q2, coarse_bits in H1 by assumption. injection H1 as <-. apply (IH' _ _ _ _ notes _ _ _ _ _ _ HV H2 HN1); auto.
        rewrite Q1. apply (p_port tpb sw coarse fine); auto.
      * rewrite arith_exact in H1 by lia. cbn [bind] in H1. injection H1 as <-. apply (IH' _ _ _ _ notes _ _ _ _ _ _ HV H2 HN1); auto.
        exact (p_setting tpb sw coarse fine last a s done [] (ChannelVolume _) (last_note_end s) HP (Forall_nil _) eq_refl).
      * rewrite Q2, fine_bits in H1 by assumption. injection H1 as <-. apply (IH' _ _ _ _ notes _ _ _ _ _ _ HV H2 HN1); auto.
        rewrite Q1. apply (p_port tpb sw coarse fine); auto.
      * rewrite Q2 in H1. injection H1 as <-. apply (IH' _ _ _ _ notes _ _ _ _ _ _ HV H2 HN1); auto.
        apply (p_port tpb sw coarse fine); auto.
      * injection H1 as <-. exact (IH' _ _ _ _ notes _ _ _ _ _ _ HV H2 HN1 HP Hoa).
    + (* ProgramChange *)
      destruct HV as (-> & Hnear & HV). destruct HI as (Hp & Habs & Hov & Hst & HE).
      destruct (program_step tpb tol D b s ch p t prev notes Hg Ht Hm HE Habs Hnear) as (s1 & H1 & H2 & H3 & H4 & H5 & H6).
      rewrite H1. cbn [bind].
      assert (HI1 : tinv tpb tol (D + loss tpb) t fin None s1 notes).
      { split; [lia|]. split; [assumption|]. split; [apply (overrun_on tpb D prev fin (last_note_end s)); try assumption; [apply HE|apply Hg]|]. split; [congruence|assumption]. }
      cbn [asked_from]. apply (IH t fin None s1 notes sw coarse fine None _ done HV HI1); auto; [lia|].
      unfold on_program_change in H1. inv_bind H1. destruct a0 as [c1 e]. inv_bind H1. injection H1 as <-.
      destruct (p_rests _ _ _ _ _ _ _ Ha) as (l & -> & Hl). rewrite <- app_assoc. apply (p_setting tpb sw coarse fine last); auto.
    + cbn [asked_from]. exact (IH' _ _ _ _ notes _ _ _ _ _ _ HV HI HN HP Hoa).
    + cbn [asked_from]. exact (IH' _ _ _ _ notes _ _ _ _ _ _ HV HI HN HP Hoa).
    + cbn [asked_from]. exact (IH' _ _ _ _ notes _ _ _ _ _ _ HV HI HN HP Hoa).
  - cbn [ofold track_step bind asked_from]. exact (IH' _ _ _ _ notes _ _ _ _ _ _ HV HI HN HP Hoa).
  - cbn [ofold track_step bind asked_from]. exact (IH' _ _ _ _ notes _ _ _ _ _ _ HV HI HN HP Hoa).
Qed.

Lemma slides_as_asked b tpb tf events max_time tr :
  1 <= tpb <= 65535 -> voice_ok tpb max_time events ->
  Forall (fun n => n_off n - n_on n <= 2 ^ 18) (notes_of events) ->
  track_new b events tpb max_time tf = Ok tr ->
  Forall2 (fun h a => slide_as_asked tpb (h_slide h) (h_tied h) a) (heads tr) (asked_of events) /\
  Forall (fun h => h_cmd h = Tie <-> h_tied h = true) (heads tr).
Proof.
  intros Hg HV HN H. split.
  2:{ destruct (track_converts b tpb tf events max_time Hg HV) as (tr' & H' & HF & _). rewrite H in H'. injection H' as <-.
      clear - HF. induction HF as [|h n l l' HR HF IH]; constructor; [|exact IH]. destruct HR as (_ & _ & -> & _).
      destruct (h_tied h); split; congruence. }
  set (tol := tolerance tpb (length events)). pose proof (loss_range tpb) as HL.
  assert (Htol : tol = tpb + loss tpb * Z.of_nat (length events)) by apply tolerance_loss.
  destruct events as [|ev0 events0].
  { injection H as <-. constructor. }
  set (events := ev0 :: events0) in *.
  assert (Hlen : 1 <= Z.of_nat (length events)) by (unfold events; cbn [length]; lia). clearbody events.
  assert (HI0 : tinv tpb tol 0 0 None None tstate0 []).
  { split; [cbn; lia|]. split; [unfold clock_near; cbn [tstate0 last_note_end]; lia|]. split; [split; [reflexivity|intros _; left; cbn [tstate0 last_note_end]; lia]|]. split; [reflexivity|].
    unfold emitted. change (w_now (the_walk (commands tstate0))) with 0. cbn [tstate0 last_note_end].
    repeat split; try lia; constructor. }
  assert (HP0 : pinv tpb false 0 0 None None tstate0 []).
  { split; [reflexivity|]. split; [reflexivity|]. split; [lia|]. split; [lia|]. split; [constructor|].
    split; [left; reflexivity|]. split; reflexivity. }
  destruct (p_loop tpb tol b tf max_time Hg events 0 0 None None tstate0 [] false 0 0 None None [] HV HI0) as (s & Hrun & HF); auto; [lia|nia|tauto|].
  destruct (track_loop tpb tol b tf max_time Hg events 0 0 None None tstate0 [] HV HI0) as (s1 & prev & fin & open & Hrun1 & HI & Hnear & Hmt); [lia|nia|].
  rewrite Hrun in Hrun1. injection Hrun1 as <-.
  unfold track_new in H. rewrite Hrun in H. cbn [bind app] in *. fold (asked_of events) in HF.
  assert (HD : Forall dur_ok (commands s)).
  { destruct HI as (_ & _ & _ & HI). destruct open as [[on k]|]; unfold emitted in HI; tauto. }
  destruct (commands s) as [|c0 cs] eqn:Ec; [injection H as <-; exact HF|]. rewrite <- Ec in *. clear Ec c0 cs.
  inv_bind H. destruct a as [c e]. cbn [fst] in H.
  assert (Hc : exists l, c = commands s ++ l /\ Forall quiet l /\ Forall dur_ok l).
  { destruct (last_note_end s <? max_time) eqn:E.
    - pose proof HI as (_ & Habs & _ & HI'). destruct Hnear as (N1 & N2 & N3). unfold clock_near in Habs.
      assert (He0 : 0 <= last_note_end s) by (destruct open as [[on k]|]; unfold emitted in HI'; tauto).
      destruct (insert_rest_step tpb b (commands s) (last_note_end s) max_time Hg ltac:(lia) ltac:(lia) ltac:(lia) ltac:(lia) ltac:(lia))
        as (l & e' & Hi & _ & _ & Hl & _). rewrite Hi in Ha. injection Ha as <- _. exists l. split; [reflexivity|]. exact (rest_quiet l Hl).
    - injection Ha as <- _. exists []. rewrite app_nil_r. auto. }
  destruct Hc as (l & -> & Hq & Hd).
  destruct (sustain_walk _ (commands s ++ l) (le_n _)) as (tr' & Hs & Hw & _); [apply Forall_app; auto|].
  rewrite Hs in H. injection H as <-. unfold heads. rewrite Hw.
  change (fold_left walk_step (commands s ++ l) walk0) with (the_walk (commands s ++ l)).
  rewrite the_walk_app. destruct (walk_quiet l (the_walk (commands s)) Hq) as (Q1 & Q2 & _). cbn zeta in *. rewrite Q2. exact HF.
Qed.

(** A portamento time of 144 steps. *)
Definition long_slide : list tmsg :=
  [(MidiEvent 0 (ControlChange 0 65 127), 0); (MidiEvent 0 (ControlChange 0 5 11), 0); (MidiEvent 0 (ControlChange 0 37 64), 0);
   (MidiEvent 0 (NoteOn 0 60 96), 0); (MidiEvent 0 (NoteOff 0 60 0), 480);
   (MidiEvent 0 (NoteOn 0 67 96), 480); (MidiEvent 0 (NoteOff 0 67 0), 960)].
Lemma long_slide_case : exists tr h a pc delay time target,
  voice_ok 480 960 long_slide /\ track_new Debug long_slide 480 960 f32_0_3 = Ok tr /\
  nth_error (heads tr) 1 = Some h /\ nth_error (asked_of long_slide) 1 = Some a /\
  h_slide h = Some pc /\ cmd pc = PitchSlide delay time target /\ 24 * a_time a = 144 * 480 /\ time = 17.
Proof.
  do 7 eexists. split.
  { unfold long_slide. voice_case. }
  split; [vm_compute; reflexivity|]. split; [vm_compute; reflexivity|]. split; [vm_compute; reflexivity|].
  split; [vm_compute; reflexivity|]. split; [vm_compute; reflexivity|]. split; vm_compute; reflexivity.
Qed.
