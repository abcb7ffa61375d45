(** ShiftTrack.v: tracks of moved voices (C68, C69). *)
From Coq Require Import ZArith List Bool Lia ZifyBool ZifyNat Reals.
From Flocq Require Import Core.
From Verif Require Import Base ProofLib F32 Messages Command Track SeqTree Song SpecSame SpecShift SameProofs ShiftProofs F32Proofs DurationProofs SplitProofs.
Ltac Zify.zify_post_hook ::= idtac.
Open Scope Z_scope.
Open Scope list_scope.

(** ** Lengths *)
Lemma rq_scaled k t tpb : 1 <= k -> 1 <= tpb -> 0 <= t -> k * t <= 2 ^ 24 -> rq (k * t) (k * tpb) = rq t tpb.
Proof.
  intros Hk Hp Ht Hb. unfold rq. rewrite !rnd_Z by nia. do 2 f_equal. f_equal. rewrite !mult_IZR.
  assert (IZR k <> 0%R) by (apply not_0_IZR; lia). assert (IZR tpb <> 0%R) by (apply not_0_IZR; lia). field. tauto.
Qed.
Lemma length_scaled k t tpb up : 1 <= k -> 1 <= tpb -> k * tpb <= 65535 -> 0 <= t -> k * t <= 2 ^ 24 ->
  quantized_length (k * t) (k * tpb) up = quantized_length t tpb up.
Proof. intros Hk Hp Hb Ht Hm. rewrite !quantized_length_real by nia. now rewrite rq_scaled. Qed.

Definition scalable (b : build) (k tpb T : Z) : Prop :=
  k = 1 \/ (b = Debug /\ 1 <= k /\ (24 | tpb) /\ 1 <= tpb /\ k * tpb <= 65535 /\ k * T < 2 ^ 23).
Definition durations (k t tpb : Z) (d1 d2 : duration_rec) : Prop :=
  d_length d2 = d_length d1 /\ overflow_count d2 = overflow_count d1 /\ quantized_ticks d2 = k * quantized_ticks d1 /\
  (k = 1 \/ 0 <= quantized_ticks d1 <= t + tpb).
Lemma split_ticks q x y : d_length (split_length q x) = d_length (split_length q y) /\ overflow_count (split_length q x) = overflow_count (split_length q y) /\
  quantized_ticks (split_length q x) = x.
Proof. unfold split_length. destruct (0x7f <? q); [destruct (q mod 0x7f =? 0)|]; auto. Qed.
Lemma duration_scaled b k tpb T t up : scalable b k tpb T -> (k = 1 \/ 0 <= t <= T) ->
  orel (durations k t tpb) (get_duration b t tpb up) (get_duration b (k * t) (k * tpb) up).
Proof.
  intros [->|(_ & Hk & [u Hu] & Hp & Hb & Hm)] Ht.
  - rewrite !Z.mul_1_l. destruct (get_duration b t tpb up); cbn; auto. unfold durations. rewrite Z.mul_1_l. auto.
  - destruct (Z.eq_dec k 1) as [->|Hk1].
    { rewrite !Z.mul_1_l. destruct (get_duration b t tpb up); cbn; auto. unfold durations. rewrite Z.mul_1_l. auto. }
    destruct Ht as [Ht|Ht]; [lia|]. assert (Hkt : 2 * t <= k * t < 8388608) by (change (2 ^ 23) with 8388608 in Hm; nia).
    assert (Hu1 : 24 <= tpb) by lia.
    assert (H24 : 24 * t / tpb <= t). { apply Z.div_le_upper_bound; [lia|]. apply Z.mul_le_mono_nonneg_r; lia. }
    assert (Hlt : 24 * t / tpb < 2 ^ 23 - 1) by (change (2 ^ 23 - 1) with 8388607; lia).
    assert (Htp : tpb <= 65535 /\ 1 <= k * tpb) by nia.
    assert (Hb24 : 0 <= t <= 2 ^ 24 /\ 0 <= k * t <= 2 ^ 24) by (change (2 ^ 24) with 16777216; lia).
    assert (H24' : 24 * (k * t) / (k * tpb) = 24 * t / tpb).
    { replace (24 * (k * t)) with (k * (24 * t)) by ring. apply Z.div_mul_cancel_l; lia. }
    rewrite !get_duration_value by (rewrite ?H24'; lia). cbn [orel]. rewrite length_scaled by lia.
    set (q := quantized_length t tpb up).
    assert (Hq : 0 <= q <= 24 * t / tpb + 1).
    { split; [apply quantized_nonneg|]. unfold q. destruct up.
      - pose proof (quantized_ceil_bound t tpb ltac:(lia) ltac:(lia) Hlt).
        assert ((24 * t + tpb - 1) / tpb <= 24 * t / tpb + 1); [|lia].
        replace (24 * t / tpb + 1) with ((24 * t + 1 * tpb) / tpb) by (rewrite Z.div_add by lia; lia). apply Z.div_le_mono; lia.
      - pose proof (quantized_floor_bound t tpb ltac:(lia) ltac:(lia) Hlt). lia. }
    assert (E1 : q * tpb / 24 = q * u). { rewrite Hu, Z.mul_assoc. apply Z.div_mul. lia. }
    assert (E2 : q * (k * tpb) / 24 = k * (q * u)). { rewrite Hu. replace (q * (k * (u * 24))) with (k * (q * u) * 24) by ring. apply Z.div_mul. lia. }
    rewrite E1, E2. destruct (split_ticks q (k * (q * u)) (q * u)) as (A1 & A2 & A3). destruct (split_ticks q (q * u) (q * u)) as (_ & _ & A4).
    unfold durations. rewrite A1, A2, A3, A4. repeat split. right.
    assert (Hd1 : 24 * t / tpb * tpb <= 24 * t) by (rewrite Z.mul_comm; apply Z.mul_div_le; lia).
    assert (Hd2 : q * tpb <= (24 * t / tpb + 1) * tpb) by (apply Z.mul_le_mono_nonneg_r; lia).
    assert (Hd3 : q * tpb = 24 * (q * u)) by (rewrite Hu; ring). assert (Hu0 : 0 <= u) by lia. pose proof (Z.mul_nonneg_nonneg q u (proj1 Hq) Hu0).
    lia.
Qed.

(** ** Commands *)
Lemma higher_plain d c : (forall p, c <> Note p) -> (forall x y p, c <> PitchSlide x y p) -> forall a v s, higher d (mk_pcmd a v s c) = mk_pcmd a v s c.
Proof. intros H1 H2 a v s. unfold higher. cbn. destruct c; try reflexivity; exfalso; [eapply H1|eapply H2]; reflexivity. Qed.
Lemma higher_slide d c : is_slide (higher d c) = is_slide c.
Proof. unfold is_slide, higher. destruct c as [? ? ? []]; reflexivity. Qed.
Lemma last_map {A B} (f : A -> B) l : last_opt (map f l) = option_map f (last_opt l).
Proof. induction l as [|x [|y l] IH]; try reflexivity. exact IH. Qed.
Lemma create_higher d c t n : create_pitch_slide (higher d c) t (n + d) = option_map (higher d) (create_pitch_slide c t n).
Proof. unfold create_pitch_slide, higher. destruct c as [[] ? ? []]; reflexivity. Qed.
Lemma sustain_higher d c n : orel (is_map (fun r => (fst r, higher d (snd r)))) (set_sustain c n) (set_sustain (higher d c) (higher d n)).
Proof.
  destruct c as [cd cv cs cc]. destruct n as [nd nv ns nc]. unfold set_sustain, higher. cbn [cmd duration velocity sustain].
  destruct cc; try reflexivity. destruct nc; try reflexivity. destruct cd as [x|]; [|reflexivity]. destruct nd as [y|]; [|reflexivity]. cbn [or_panic bind].
  destruct (x + y =? 0); [reflexivity|]. destruct (_ || _); reflexivity.
Qed.
Lemma pass_higher d n : forall l, (length l <= n)%nat -> orel (is_map (map (higher d))) (sustain_pass l) (sustain_pass (map (higher d) l)).
Proof.
  induction n as [|n IH]; intros [|c [|c2 l]] Hl; try reflexivity; try (cbn in Hl; lia). cbn [map sustain_pass]. eapply orel_bind; [apply sustain_higher|].
  intros [skip c'] [skip2 c2'] E. injection E as -> ->. cbn [fst snd]. apply orel_bind with (R := is_map (map (higher d))).
  - destruct skip; [apply IH; cbn in Hl; lia|]. apply (IH (c2 :: l)). cbn in *. lia.
  - intros r r2 ->. reflexivity.
Qed.

(** ** The loop *)
Definition within (T tpb x : Z) : Prop := 0 <= x <= T + tpb.
Record tsim (d k T tpb : Z) (s1 s2 : tstate) : Prop := mk_tsim {
  ts_cmds : commands s2 = map (higher d) (commands s1);
  ts_start : note_start s2 = option_map (Z.mul k) (note_start s1);
  ts_vel : note_velocity s2 = note_velocity s1;
  ts_end : last_note_end s2 = k * last_note_end s1;
  ts_port : portamento s2 = portamento s1;
  ts_time : port_time s2 = port_time s1;
  ts_in : k = 1 \/ (portamento s1 = false /\ within T tpb (last_note_end s1) /\ forall x, note_start s1 = Some x -> within T tpb x)
}.
Lemma rest_scaled b d k T tpb c e t : scalable b k tpb T -> 0 <= t <= T -> (k = 1 \/ within T tpb e) ->
  orel (fun r1 r2 => fst r2 = map (higher d) (fst r1) /\ snd r2 = k * snd r1 /\ (k = 1 \/ within T tpb (snd r1)))
    (insert_rest b c e t tpb) (insert_rest b (map (higher d) c) (k * e) (k * t) (k * tpb)).
Proof.
  intros Hs Ht He. unfold insert_rest. assert (Hk : 1 <= k) by (destruct Hs; lia). replace (k * e <? k * t) with (e <? t) by nia.
  destruct (e <? t) eqn:El; [|cbn; auto]. replace (k * t - k * e) with (k * (t - e)) by ring.
  assert (Hr : k = 1 \/ 0 <= t - e <= T) by (destruct He as [He|He]; [now left|right; unfold within in He; lia]).
  eapply orel_bind; [apply (duration_scaled b k tpb T (t - e) false Hs Hr)|]. intros d1 d2 (E1 & E2 & E3 & E4). rewrite E1, E2, E3.
  assert (Ha : orel (fun x y => y = k * x /\ (k = 1 \/ within T tpb x)) (arith b 32 (e + quantized_ticks d1)) (arith b 32 (k * e + k * quantized_ticks d1))).
  { destruct Hs as [->|(-> & _ & _ & Hp & Hb & Hm)].
    - rewrite !Z.mul_1_l. destruct (arith b 32 _); cbn [orel]; auto. split; [lia|now left].
    - destruct (Z.eq_dec k 1) as [->|Hk1]; [rewrite !Z.mul_1_l; destruct (arith Debug 32 _); cbn [orel]; auto; split; [lia|now left]|].
      destruct E4 as [E4|E4]; [lia|]. destruct He as [He|He]; [lia|]. unfold within in *.
      rewrite !arith_exact; [cbn [orel]; split; [ring|right; nia]|change (2 ^ 32) with 4294967296; nia|change (2 ^ 32) with 4294967296; nia]. }
  eapply orel_bind; [exact Ha|]. intros x y [-> Hx]. cbn [orel fst snd]. split; [|auto].
  assert (Em : forall n, map (higher d) (c ++ repeat (rest_cmd 0x7f) n) = map (higher d) c ++ repeat (rest_cmd 0x7f) n).
  { intros n. rewrite map_app. f_equal. induction n as [|n IH]; [reflexivity|]. cbn [repeat map]. rewrite IH. reflexivity. }
  destruct (0 <? d_length d1); [|now rewrite Em]. rewrite map_app, Em. reflexivity.
Qed.
Lemma note_byte b d k n c m t : fits d k m -> key_of m = Some n -> (c : tmsg) = (m, t) ->
  orel (fun p q => q = p + d) (arith b 8 (n + 0x68)) (arith b 8 (n + d + 0x68)).
Proof.
  intros [[->|H] _] Hk _; [rewrite Z.add_0_r; destruct (arith b 8 _); cbn [orel]; auto; lia|]. specialize (H n Hk).
  rewrite !arith_exact; [cbn [orel]; lia|lia|lia].
Qed.
Lemma ties_higher d n l : map (higher d) (overflow_ties n l) = overflow_ties n l.
Proof.
  unfold overflow_ties. destruct (0 <? n); [|reflexivity]. rewrite map_app. f_equal. induction (Z.to_nat (n - 1)) as [|i IH]; [reflexivity|]. cbn [repeat map]. rewrite IH. reflexivity.
Qed.
Lemma step_scaled b d k T tpb tf s1 s2 x : scalable b k tpb T -> tsim d k T tpb s1 s2 -> kept d k T x ->
  orel (tsim d k T tpb) (track_step b tpb tf s1 x) (track_step b (k * tpb) tf s2 (moved d k x)).
Proof.
  intros Hs H [Hf Ht]. destruct x as [m t]. cbn [fst snd] in Hf, Ht. unfold moved. cbn [fst snd].
  assert (Hk : 1 <= k) by (destruct Hs; lia).
  assert (Hplain : forall c, (forall p, c <> Note p) -> (forall x y p, c <> PitchSlide x y p) -> tsim d k T tpb (set_commands s1 (commands s1 ++ [plain_cmd c])) (set_commands s2 (commands s2 ++ [plain_cmd c]))).
  { intros c H1 H2. destruct H. constructor; cbn; auto. rewrite map_app, ts_cmds0. cbn [map]. unfold plain_cmd. now rewrite higher_plain. }
  destruct m as [dt e data|dt e| |]; cbn [transpose track_step]; try exact H.
  - destruct e; [|exact H]. cbn [on_meta]. destruct (usec_of_data data); cbn [bind orel]; auto. apply Hplain; intros; discriminate.
  - destruct e; cbn [track_step]; try exact H.
    + (* note-off *) unfold on_note_off. rewrite (ts_start _ _ _ _ _ _ H). destruct (note_start s1) as [st|] eqn:Est; cbn [option_map]; [|exact H].
      assert (Hst : k = 1 \/ within T tpb st) by (destruct (ts_in _ _ _ _ _ _ H) as [?|(_ & _ & Hx)]; [now left|right; auto]).
      apply orel_bind with (R := fun a c => c = k * a /\ (k = 1 \/ (a = t - st /\ 0 <= a <= T))).
      { replace (k * t - k * st) with (k * (t - st)) by ring. destruct Hs as [->|(-> & _ & _ & Hp & Hb & Hm)].
        - rewrite !Z.mul_1_l. destruct (arith b 32 _); cbn [orel]; auto. split; [lia|now left].
        - destruct (Z.eq_dec k 1) as [->|Hk1]; [rewrite !Z.mul_1_l; destruct (arith Debug 32 _); cbn [orel]; auto; split; [lia|now left]|].
          destruct Hst as [Hst|Hst]; [lia|]. unfold within in Hst. unfold arith. change (2 ^ 32) with 4294967296.
          destruct (Z_lt_le_dec (t - st) 0) as [Hn|Hn].
          + replace (0 <=? t - st) with false by lia. replace (0 <=? k * (t - st)) with false by nia. reflexivity.
          + replace ((0 <=? t - st) && (t - st <? 4294967296)) with true by nia. replace ((0 <=? k * (t - st)) && (k * (t - st) <? 4294967296)) with true by nia.
            cbn [orel]. split; [reflexivity|right]. lia. }
      intros a ? [-> Hat].
      eapply orel_bind; [apply (duration_scaled b k tpb T a true Hs)|].
      { destruct Hat as [Hat|Hat]; [now left|right; lia]. }
      intros d1 d2 (E1 & E2 & E3 & E4). rewrite E1, E2, E3. rewrite (ts_cmds _ _ _ _ _ _ H), last_map.
      replace (match option_map (higher d) (last_opt (commands s1)) with Some c => is_slide c | None => false end) with
        (match last_opt (commands s1) with Some c => is_slide c | None => false end) by (destruct (last_opt (commands s1)); cbn [option_map]; [now rewrite higher_slide|reflexivity]).
      apply orel_bind with (R := fun c1 c2 => forall x y z, mk_pcmd x y z c2 = higher d (mk_pcmd x y z c1)).
      { destruct (last_opt (commands s1)) as [lc|]; [destruct (is_slide lc)|]; try (cbn [orel]; intros; reflexivity);
          (eapply orel_bind; [apply (note_byte b d k note (MidiEvent dt (NoteOff ch note velocity), t) _ t Hf); reflexivity|]; intros p q ->; cbn [orel]; intros; reflexivity). }
      intros c1 c2 Hc. rewrite Hc.
      apply orel_bind with (R := fun x y => y = k * x /\ (k = 1 \/ within T tpb x)).
      { destruct Hs as [->|(-> & _ & _ & Hp & Hb & Hm)].
        - rewrite !Z.mul_1_l. destruct (arith b 32 _); cbn [orel]; auto. split; [lia|now left].
        - destruct (Z.eq_dec k 1) as [->|Hk1]; [rewrite !Z.mul_1_l; destruct (arith Debug 32 _); cbn [orel]; auto; split; [lia|now left]|].
          destruct E4 as [E4|E4]; [lia|]. destruct Hst as [Hst|Hst]; [lia|]. destruct Hat as [Hat|[Hat1 Hat2]]; [lia|]. unfold within in *.
          rewrite !arith_exact; [cbn [orel]; split; [ring|right; nia]|change (2 ^ 32) with 4294967296; nia|change (2 ^ 32) with 4294967296; nia]. }
      intros e e2 [-> He]. cbn [orel]. destruct H. constructor; cbn [commands note_start note_velocity last_note_end portamento port_time option_map]; auto.
      * rewrite map_app. cbn [map]. rewrite ties_higher, ts_vel0. reflexivity.
      * destruct ts_in0 as [?|(Hpo & _ & _)]; [now left|]. destruct He as [?|He]; [now left|]. right. split; [exact Hpo|]. split; [exact He|]. intros x Ex. discriminate.
    + (* note-on *) unfold on_note_on. rewrite (ts_cmds _ _ _ _ _ _ H), (ts_end _ _ _ _ _ _ H), (ts_start _ _ _ _ _ _ H).
      eapply orel_bind; [apply (rest_scaled b d k T tpb _ _ t Hs Ht)|].
      { destruct (ts_in _ _ _ _ _ _ H) as [?|(_ & Hx & _)]; [now left|now right]. }
      intros [c1 e] [c2 e2] (E1 & E2 & E3). cbn [fst snd] in E1, E2, E3. subst c2 e2.
      apply orel_bind with (R := is_map (map (higher d))).
      { unfold push_slide. rewrite (ts_port _ _ _ _ _ _ H), (ts_time _ _ _ _ _ _ H). destruct (portamento s1) eqn:Epo; [|reflexivity].
        destruct (ts_in _ _ _ _ _ _ H) as [->|(Hx & _)]; [|congruence]. rewrite last_map. destruct (last_opt c1) as [lc|]; [|reflexivity]. cbn [option_map].
        rewrite Z.mul_1_l. apply orel_bind with (R := eq); [apply orel_refl|]. intros d1 ? <-.
        eapply orel_bind; [apply (note_byte b d 1 note (MidiEvent dt (NoteOn ch note velocity), t) _ t Hf); reflexivity|]. intros p q ->. rewrite create_higher.
        destruct (create_pitch_slide lc (d_length d1) p); cbn [option_map orel]; [|reflexivity]. unfold is_map. rewrite map_app. reflexivity. }
      intros c2 ? ->. destruct (note_start s1); cbn [option_map]; [reflexivity|]. cbn [orel]. destruct H.
      constructor; cbn [commands note_start note_velocity last_note_end portamento port_time option_map]; auto.
      destruct ts_in0 as [?|(Hpo & _ & _)]; [now left|]. destruct E3 as [?|E3]; [now left|]. right. split; [exact Hpo|]. split; [exact E3|]. intros x Ex. injection Ex as <-. exact E3.
    + (* control change *) unfold on_control_change.
      destruct (control =? 5) eqn:C5; [destruct H; constructor; cbn; auto; now rewrite ts_time0|].
      destruct (control =? 7) eqn:C7; [destruct (arith b 8 (data * 2)); cbn [bind orel]; auto; apply Hplain; intros; discriminate|].
      destruct (control =? 37) eqn:C37; [destruct H; constructor; cbn; auto; now rewrite ts_time0|].
      destruct (control =? 65) eqn:C65; [|exact H]. assert (control = 65) by lia. subst control. destruct H; constructor; cbn; auto.
      destruct ts_in0 as [?|(Hpo & Hx)]; [now left|]. destruct Hf as [_ [?|Hf]]; [now left|]. right. split; [exact Hf|exact Hx].
    + (* program change *) unfold on_program_change. rewrite (ts_cmds _ _ _ _ _ _ H), (ts_end _ _ _ _ _ _ H), (ts_start _ _ _ _ _ _ H).
      eapply orel_bind; [apply (rest_scaled b d k T tpb _ _ t Hs Ht)|].
      { destruct (ts_in _ _ _ _ _ _ H) as [?|(_ & Hx & _)]; [now left|now right]. }
      intros [c1 e] [c2 e2] (E1 & E2 & E3). cbn [fst snd] in E1, E2, E3. subst c2 e2.
      apply orel_bind with (R := eq); [apply orel_refl|]. intros i ? <-. cbn [orel]. destruct H. constructor; cbn [commands note_start note_velocity last_note_end portamento port_time option_map]; auto.
      * rewrite map_app. reflexivity.
      * destruct ts_in0 as [?|(Hpo & _ & Hx)]; [now left|]. destruct E3 as [?|E3]; [now left|]. right. split; [exact Hpo|]. split; [exact E3|exact Hx].
Qed.
Lemma track_scaled b d k T tpb tf mt v1 v2 : scalable b k tpb T -> 0 <= mt <= T -> vmoved d k T v1 v2 -> (k = 1 \/ 0 <= tpb) ->
  orel (is_map (map (higher d))) (track_new b v1 tpb mt tf) (track_new b v2 (k * tpb) (k * mt) tf).
Proof.
  intros Hs Hmt [Ev Hv] Htpb. unfold track_new. rewrite (track_music b tpb tf v1), (track_music b (k * tpb) tf v2), Ev.
  assert (Hk : 1 <= k) by (destruct Hs; lia).
  apply orel_bind with (R := tsim d k T tpb).
  - assert (H0 : tsim d k T tpb tstate0 tstate0).
    { constructor; cbn; auto; try lia. destruct Htpb as [?|Htpb]; [now left|right]. split; [reflexivity|]. split; [unfold within; lia|]. intros x Ex. discriminate. }
    revert H0. generalize tstate0 at 1 3. generalize tstate0. clear Ev. induction Hv as [|x l Hx Hl IH]; intros s2 s1 H; cbn [map ofold]; [exact H|].
    eapply orel_bind; [apply (step_scaled b d k T tpb tf s1 s2 x Hs H Hx)|]. intros; now apply IH.
  - intros s1 s2 H. rewrite (ts_cmds _ _ _ _ _ _ H). destruct (commands s1) as [|c l] eqn:Ec; [reflexivity|]. cbn [map]. rewrite (ts_end _ _ _ _ _ _ H).
    replace (k * last_note_end s1 <? k * mt) with (last_note_end s1 <? mt) by nia.
    apply orel_bind with (R := fun r1 r2 : list pcmd * Z => fst r2 = map (higher d) (fst r1)).
    + destruct (last_note_end s1 <? mt); [|reflexivity]. pose proof (rest_scaled b d k T tpb (c :: l) (last_note_end s1) mt Hs Hmt) as Hr.
      assert (Hin : k = 1 \/ within T tpb (last_note_end s1)) by (destruct (ts_in _ _ _ _ _ _ H) as [?|(_ & Hx & _)]; [now left|now right]).
      specialize (Hr Hin). cbn [map] in Hr. destruct (insert_rest b (c :: l) _ _ _), (insert_rest b (higher d c :: _) _ _ _); cbn in *; tauto.
    + intros r1 r2 E. rewrite E. apply (pass_higher d (length (fst r1))). lia.
Qed.
Lemma convert_scaled b d k T tpb tf mt vs1 vs2 : scalable b k tpb T -> 0 <= mt <= T -> (k = 1 \/ 0 <= tpb) -> Forall2 (vmoved d k T) vs1 vs2 ->
  orel (is_map (map (map (higher d)))) (convert_voices b vs1 tpb mt tf) (convert_voices b vs2 (k * tpb) (k * mt) tf).
Proof.
  intros Hs Hmt Hp. induction 1 as [|v1 v2 vs1 vs2 Hv H IH]; cbn [convert_voices]; [reflexivity|].
  eapply orel_bind; [apply (track_scaled b d k T tpb tf mt v1 v2 Hs Hmt Hv Hp)|]. intros t ? ->. eapply orel_bind; [exact IH|]. intros r ? ->. destruct t; reflexivity.
Qed.
