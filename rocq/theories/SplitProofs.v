(** SplitProofs.v: splitting long durations (C07). *)
From Coq Require Import ZArith List Bool Lia ZifyBool ZifyNat.
From Verif Require Import Base F32 Messages Command Track ProofLib SpecTime.

Lemma zsum_app l1 l2 : zsum (l1 ++ l2) = zsum l1 + zsum l2.
Proof.
  unfold zsum. induction l1 as [|x l IH]; cbn [fold_right app]; [reflexivity|]. rewrite IH. lia.
Qed.
Lemma total_steps_app l1 l2 : total_steps (l1 ++ l2) = total_steps l1 + total_steps l2.
Proof. unfold total_steps. rewrite map_app. apply zsum_app. Qed.
Lemma total_steps_cons c l : total_steps (c :: l) = steps c + total_steps l.
Proof. reflexivity. Qed.
Lemma total_steps_repeat c n : total_steps (repeat c n) = Z.of_nat n * steps c.
Proof. induction n as [|n IH]; [reflexivity|]. cbn [repeat]. rewrite total_steps_cons, IH. lia. Qed.

Lemma as_u8_small x : 0 <= x < 256 -> as_u 8 x = x.
Proof. intros H. unfold as_u. apply Z.mod_small. exact H. Qed.

Lemma split_length_spec q qt : 0 <= q <= 32512 ->
  let d := split_length q qt in
  d_length d + 127 * overflow_count d = q /\ quantized_ticks d = qt /\
  0 <= d_length d <= 127 /\ 0 <= overflow_count d <= 255 /\ (1 <= q -> 1 <= d_length d).
Proof.
  intros H. cbn zeta. unfold split_length. destruct (0x7f <? q) eqn:E1.
  - destruct (q mod 0x7f =? 0) eqn:E2; cbn [d_length quantized_ticks overflow_count].
    + rewrite as_u8_small by lia. lia.
    + rewrite !as_u8_small by lia. lia.
  - cbn [d_length quantized_ticks overflow_count]. rewrite as_u8_small by lia. lia.
Qed.
(** Without the bound on the length: the fields always fit a byte. *)
Lemma split_length_ranges q qt : 0 <= q ->
  let d := split_length q qt in
  quantized_ticks d = qt /\ 0 <= d_length d <= 127 /\ 0 <= overflow_count d <= 255 /\
  (1 <= q -> 1 <= d_length d).
Proof.
  intros H. cbn zeta. unfold split_length, as_u. change (2 ^ 8) with 256. destruct (0x7f <? q) eqn:E1.
  - destruct (q mod 0x7f =? 0) eqn:E2; cbn [d_length quantized_ticks overflow_count].
    + pose proof (Z.mod_pos_bound (q / 127 - 1) 256 eq_refl). lia.
    + rewrite Z.mod_small by lia. pose proof (Z.mod_pos_bound (q / 127) 256 eq_refl). lia.
  - cbn [d_length quantized_ticks overflow_count]. rewrite Z.mod_small by lia. lia.
Qed.

Lemma get_duration_ok b t tpb up d :
  get_duration b t tpb up = Ok d ->
  exists prod, arith b 32 (quantized_length t tpb up * tpb) = Ok prod /\
    d = split_length (quantized_length t tpb up) (prod / 24).
Proof.
  unfold get_duration. intros H. inv_bind H. injection H as <-. eauto.
Qed.
Lemma as_uint_nonneg x : 0 <= f32_as_uint 32 x.
Proof.
  destruct x as [s|s| |s m e]; cbn [f32_as_uint]; try lia.
  - destruct s; lia.
  - destruct s; [lia|]. apply Z.min_glb; [lia|]. destruct (0 <=? e) eqn:E.
    + assert (0 < 2 ^ e) by (apply Z.pow_pos_nonneg; lia). nia.
    + apply Z.div_pos; [lia|]. apply Z.pow_pos_nonneg; lia.
Qed.
Lemma quantized_nonneg t tpb up : 0 <= quantized_length t tpb up.
Proof. apply as_uint_nonneg. Qed.

Definition rest_piece (pc : pcmd) : Prop := cmd pc = Rest /\ legal_duration pc.
Definition tie_piece (pc : pcmd) : Prop := cmd pc = Tie /\ legal_duration pc /\ velocity pc = None /\ sustain pc = None.

Lemma insert_rest_split b cmds e t tpb cmds' e' :
  insert_rest b cmds e t tpb = Ok (cmds', e') -> e < t ->
  quantized_length (t - e) tpb false <= 32512 ->
  exists pieces, cmds' = cmds ++ pieces /\
    Forall (fun pc => cmd pc = Rest /\ legal_duration pc) pieces /\
    total_steps pieces = quantized_length (t - e) tpb false.
Proof.
  intros H He Hq. unfold insert_rest in H. destruct (e <? t) eqn:E; [|lia].
  inv_bind H. rename a into d. inv_bind H. injection H as <- _.
  apply get_duration_ok in Ha. destruct Ha as (prod & _ & ->).
  set (q := quantized_length (t - e) tpb false) in *.
  pose proof (quantized_nonneg (t - e) tpb false) as Hnn. fold q in Hnn.
  destruct (split_length_spec q (prod / 24) ltac:(lia)) as (H1 & _ & H3 & H4 & H5).
  set (d := split_length q (prod / 24)) in *.
  assert (Hrep : Forall (fun pc => cmd pc = Rest /\ legal_duration pc)
    (repeat (rest_cmd 0x7f) (Z.to_nat (overflow_count d)))).
  { apply Forall_forall. intros x Hx. apply repeat_spec in Hx. subst x. split; [reflexivity|].
    exists 0x7f. split; [reflexivity|lia]. }
  destruct (0 <? d_length d) eqn:E2.
  - exists (repeat (rest_cmd 0x7f) (Z.to_nat (overflow_count d)) ++ [rest_cmd (d_length d)]).
    split; [now rewrite app_assoc|]. split.
    + apply Forall_app. split; auto. repeat constructor. exists (d_length d). split; [reflexivity|lia].
    + rewrite total_steps_app, total_steps_repeat. change (steps (rest_cmd 0x7f)) with 127.
      change (total_steps [rest_cmd (d_length d)]) with (d_length d + 0). lia.
  - eexists. split; [reflexivity|]. split; auto.
    rewrite total_steps_repeat. change (steps (rest_cmd 0x7f)) with 127. lia.
Qed.

Lemma note_off_split b s note t tpb s' start :
  on_note_off b s note t tpb = Ok s' -> note_start s = Some start ->
  start <= t -> t - start < 2 ^ 32 ->
  1 <= quantized_length (t - start) tpb true <= 32512 ->
  exists head ties, commands s' = commands s ++ head :: ties /\
    (is_note (cmd head) = true \/ cmd head = Tie) /\ legal_duration head /\
    Forall (fun pc => cmd pc = Tie /\ legal_duration pc /\ velocity pc = None /\ sustain pc = None) ties /\
    total_steps (head :: ties) = quantized_length (t - start) tpb true.
Proof.
  intros H Hs Hle Hlt Hq. unfold on_note_off in H. rewrite Hs in H.
  rewrite arith_exact in H by lia. cbn [bind] in H.
  inv_bind H. rename a into d. inv_bind H. rename a into c. inv_bind H. injection H as <-.
  apply get_duration_ok in Ha. destruct Ha as (prod & _ & ->).
  set (q := quantized_length (t - start) tpb true) in *.
  destruct (split_length_spec q (prod / 24) ltac:(lia)) as (H1 & _ & H3 & H4 & H5).
  set (d := split_length q (prod / 24)) in *. cbn [commands].
  eexists. eexists. split; [reflexivity|]. split; [|split; [|split]].
  - cbn [cmd]. destruct (match last_opt (commands s) with Some c => is_slide c | None => false end).
    + injection Ha0 as <-. right; reflexivity.
    + inv_bind Ha0. injection Ha0 as <-. left; reflexivity.
  - eexists. split; [reflexivity|]. destruct (0 <? overflow_count d) eqn:E; lia.
  - unfold overflow_ties. destruct (0 <? overflow_count d) eqn:E; [|constructor].
    apply Forall_app. split.
    + apply Forall_forall. intros x Hx. apply repeat_spec in Hx. subst x. repeat split.
      exists 0x7f. split; [reflexivity|lia].
    + repeat constructor. exists (d_length d). split; [reflexivity|lia].
  - rewrite total_steps_cons. cbn [steps duration]. unfold overflow_ties.
    destruct (0 <? overflow_count d) eqn:E.
    + rewrite total_steps_app, total_steps_repeat. change (steps (tie_cmd 0x7f)) with 127.
      change (total_steps [tie_cmd (d_length d)]) with (d_length d + 0).
      unfold steps. cbn [duration]. lia.
    + change (total_steps []) with 0. unfold steps; cbn [duration]. lia.
Qed.

(** Beyond 256 * 127 steps the piece count wraps: a rest of 32513 steps becomes one of a single step. *)
Lemma rest_split_lossy :
  exists b cmds e t tpb cmds' e',
    insert_rest b cmds e t tpb = Ok (cmds', e') /\ e < t /\
    quantized_length (t - e) tpb false = 32513 /\ cmds = [] /\ total_steps cmds' = 1.
Proof.
  exists Debug, [], 0, 32513, 24. eexists. eexists.
  split; [vm_compute; reflexivity|]. repeat split; try lia; vm_compute; reflexivity.
Qed.
