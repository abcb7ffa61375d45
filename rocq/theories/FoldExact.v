(** FoldExact.v: exactly which folded notes play as written (C04). *)
From Coq Require Import ZArith List Bool Lia ZifyBool ZifyNat.
From Verif Require Import Base Command Track Song SpecNspc CodecProofs FrameProofs.

Lemma written_first d v q p : 128 <= d <= 254 -> exists bs, fst (track_write [mk_pcmd (Some d) v q (Note p)] [] []) = d :: bs.
Proof.
  intros Hd. unfold track_write. cbn [track_write_from]. unfold pcmd_write. cbn [duration cmd]. replace (d =? 255) with false by lia.
  replace (0 <? d) with true by lia. cbn [negb]. cbv beta iota.
  destruct (requested_vs _ None); cbn [is_note]; cbn [command_write token_of app fst]; eauto.
Qed.
Lemma first_no_duration f d bs e es r : 128 <= d -> play (S f) (d :: bs) None None = Some (e :: es, r) -> ev_dur e = None.
Proof.
  intros Hd H. cbn [play] in H. unfold decode_token in H. replace (d =? 0) with false in H by lia. replace (d <? 128) with false in H by lia.
  assert (G : forall t r0, (match play f r0 None None with Some (es, r') => Some (mk_event t None None :: es, r') | None => None end) = Some (e :: es, r) ->
    ev_dur e = None).
  { intros t r0 G. destruct (play f r0 None None) as [[es' r']|]; [|discriminate]. injection G as <- _ _. reflexivity. }
  destruct (d <? 200); [eapply G; exact H|]. destruct (d =? 200); [eapply G; exact H|]. destruct (d =? 201); [eapply G; exact H|].
  destruct (d <? 224); [eapply G; exact H|]. destruct (nth_error param_counts (Z.to_nat (d - 224))) as [n|]; [|discriminate].
  destruct (Nat.leb n (length bs)); [|discriminate]. eapply G; exact H.
Qed.
Lemma fold_exact n m v s v2 s2 p c : 1 <= n <= 127 -> 1 <= m <= 127 -> 0x80 <= p <= 0xc7 -> in_range 0 15 v ->
  set_sustain (mk_pcmd (Some n) v s (Note p)) (mk_pcmd (Some m) v2 s2 Rest) = Ok (true, c) ->
  ((forall rest, play_stream (fst (track_write [c] [] []) ++ 0 :: rest) = Some (prescribed [c] None None, rest)) <-> n + m <= 127).
Proof.
  intros Hn Hm Hp Hv H. destruct (set_sustain_pair _ _ _ _ _ _ _ _ _ Hn Hm H) as (q & -> & Hq & _). split.
  - intros Hplay. destruct (Z_le_gt_dec (n + m) 127) as [Hle|Hgt]; [exact Hle|exfalso].
    destruct (written_first (n + m) v (Some q) p ltac:(lia)) as [bs E]. rewrite E in Hplay. specialize (Hplay []).
    unfold play_stream in Hplay. cbn [app prescribed] in Hplay. apply first_no_duration in Hplay; [|lia].
    cbn [ev_dur] in Hplay. unfold prescribed_dur, positive in Hplay. cbn [duration] in Hplay. replace (0 <? n + m) with true in Hplay by lia. discriminate.
  - intros Hle rest. apply track_write_plays. unfold well_formed. cbn [well_formed_from duration]. replace (0 <? n + m) with true by lia.
    split; [|split; auto]. unfold pcmd_ok. cbn [cmd duration velocity sustain]. unfold bytes_ok, u8. cbn. repeat split; try lia. exact Hv.
Qed.
