(** OptShift.v: the loop optimiser only looks at which commands are equal (used by C69). *)
From Coq Require Import ZArith List Bool Lia ZifyBool ZifyNat.
From Verif Require Import Base ProofLib Messages Command Track SeqTree Song SameProofs SpecShift ShiftProofs.
Ltac Zify.zify_post_hook ::= idtac.
Open Scope list_scope.

(** A renaming of commands the optimiser cannot see. *)
Record renaming (f : pcmd -> pcmd) : Prop := mk_renaming {
  rn_inj : forall x y, f x = f y -> x = y;
  rn_eligible : forall x, call_loop_eligible (f x) = call_loop_eligible x;
  rn_first : forall x, can_be_first_in_call_loop (f x) = can_be_first_in_call_loop x;
  rn_last : forall x, can_be_last_in_call_loop (f x) = can_be_last_in_call_loop x;
  rn_call : forall d v s i n, f (mk_pcmd d v s (CallLoop i n)) = mk_pcmd d v s (CallLoop i n)
}.
Lemma rename_eqb f x y : renaming f -> pcmd_eqb (f x) (f y) = pcmd_eqb x y.
Proof.
  intros H. unfold pcmd_eqb. destruct (pcmd_eq_dec x y) as [->|Hn]; destruct (pcmd_eq_dec (f _) (f _)) as [E|E]; try reflexivity; [congruence|].
  exfalso. apply Hn. now apply (rn_inj _ H).
Qed.
Fixpoint tmap (f : pcmd -> pcmd) (t : tree) : tree :=
  match t with
  | Node es ls => Node (map (fun e => match e with Edge c tg => Edge (map f c) (match tg with Some t' => Some (tmap f t') | None => None end) end) es) ls
  end.
Definition emap (f : pcmd -> pcmd) (e : edge) : edge := match e with Edge c tg => Edge (map f c) (option_map (tmap f) tg) end.
Lemma tmap_node f es ls : tmap f (Node es ls) = Node (map (emap f) es) ls.
Proof. reflexivity. Qed.
Lemma edges_tmap f t : edges_of (tmap f t) = map (emap f) (edges_of t).
Proof. destruct t. reflexivity. Qed.
Lemma locs_tmap f t : locs_of (tmap f t) = locs_of t.
Proof. destruct t. reflexivity. Qed.
Lemma ecmds_emap f e : ecmds_of (emap f e) = map f (ecmds_of e).
Proof. destruct e. reflexivity. Qed.
Lemma target_emap f e : target_of (emap f e) = option_map (tmap f) (target_of e).
Proof. destruct e. reflexivity. Qed.
Lemma find_edge_map f es c : renaming f -> find_edge (map (emap f) es) (f c) = find_edge es c.
Proof.
  intros H. induction es as [|e es IH]; [reflexivity|]. cbn [map find_edge]. rewrite ecmds_emap. destruct (ecmds_of e) as [|c0 l]; [reflexivity|]. cbn [map].
  rewrite rename_eqb by exact H. now rewrite IH.
Qed.
Lemma shared_map f cs : renaming f -> forall es, shared_len (map f cs) (map f es) = shared_len cs es.
Proof. intros H. induction cs as [|c cs IH]; intros [|e es]; try reflexivity. cbn [map shared_len]. rewrite rename_eqb by exact H. now rewrite IH. Qed.
Lemma trim_map f n cs es : renaming f -> trim_shared n (map f cs) (map f es) = trim_shared n cs es.
Proof.
  intros H. induction n as [|n IH]; [reflexivity|]. cbn [trim_shared]. rewrite !map_length, nth_error_map, IH.
  destruct (nth_error cs n); cbn [option_map]; [|reflexivity]. now rewrite (rn_last _ H).
Qed.
Lemma take_while_map f l : renaming f -> take_while call_loop_eligible (map f l) = map f (take_while call_loop_eligible l).
Proof. intros H. induction l as [|x l IH]; [reflexivity|]. cbn [map take_while]. rewrite (rn_eligible _ H). destruct (call_loop_eligible x); [|reflexivity]. cbn [map]. now rewrite IH. Qed.
Lemma push_edge_map f es cs ti ss sl : renaming f -> push_edge (map (emap f) es) (map f cs) ti ss sl = map (emap f) (push_edge es cs ti ss sl).
Proof.
  intros H. unfold push_edge. rewrite take_while_map by exact H. destruct (take_while call_loop_eligible cs); [reflexivity|]. rewrite map_app. reflexivity.
Qed.
Lemma split_map f b ec old n sl : orel (is_map (tmap f)) (split_node b ec old n sl) (split_node b (map f ec) (option_map (tmap f) old) n sl).
Proof.
  destruct old as [t|]; [|reflexivity]. cbn [option_map split_node]. rewrite locs_tmap. apply orel_bind with (R := eq); [apply orel_refl|]. intros ls ? <-.
  cbn [orel]. unfold is_map. rewrite tmap_node. cbn [map emap option_map]. now rewrite skipn_map.
Qed.
Lemma add_map f b : renaming f -> forall fuel t cs ti ss sl,
  orel (is_map (tmap f)) (add_commands fuel b t cs ti ss sl) (add_commands fuel b (tmap f t) (map f cs) ti ss sl).
Proof.
  intros H. induction fuel as [|fuel IH]; intros t cs ti ss sl; [reflexivity|]. cbn [add_commands]. rewrite locs_tmap, edges_tmap.
  apply orel_bind with (R := eq); [apply orel_refl|]. intros ls ? <-. destruct cs as [|c0 cs]; [reflexivity|].
  change (map f (c0 :: cs)) with (f c0 :: map f cs). cbv iota. change (f c0 :: map f cs) with (map f (c0 :: cs)).
  rewrite find_edge_map by exact H. apply orel_bind with (R := eq); [apply orel_refl|]. intros fe ? <-.
  destruct fe as [i|]; [|cbn [orel]; unfold is_map; rewrite tmap_node, push_edge_map by exact H; reflexivity].
  eapply orel_bind; [apply nth_moved|]. intros e ? ->. rewrite ecmds_emap, target_emap, shared_map, trim_map, (rn_first _ H) by exact H.
  set (n := trim_shared (shared_len (c0 :: cs) (ecmds_of e)) (c0 :: cs) (ecmds_of e)).
  destruct (Nat.ltb 0 n && can_be_first_in_call_loop c0); [|cbn [orel]; unfold is_map; rewrite tmap_node, push_edge_map by exact H; reflexivity].
  apply orel_bind with (R := is_map (emap f)).
  - rewrite map_length. destruct (Nat.eqb n (length (ecmds_of e))).
    + apply orel_bind with (R := is_map (tmap f)); [destruct (target_of e); reflexivity|]. intros tg ? ->. rewrite locs_tmap, edges_tmap.
      apply orel_bind with (R := eq); [apply orel_refl|]. intros tls ? <-. rewrite <- tmap_node, map_length, skipn_map.
      apply orel_bind with (R := is_map (tmap f)); [destruct (Nat.ltb n (length (c0 :: cs))); [apply IH|reflexivity]|]. intros tg' ? ->. reflexivity.
    + eapply orel_bind; [apply split_map|]. intros nt ? ->. rewrite skipn_map. eapply orel_bind; [apply IH|]. intros nt' ? ->. rewrite firstn_map. reflexivity.
  - intros e' ? ->. eapply orel_bind; [apply set_moved|]. intros es ? ->. reflexivity.
Qed.
Lemma add_track_map f b t tr ti : renaming f -> orel (is_map (tmap f)) (add_track b t tr ti) (add_track b (tmap f t) (map f tr) ti).
Proof.
  intros H. unfold add_track. rewrite map_length. generalize (seq 0 (length tr)). intros l. revert t. induction l as [|i l IH]; intros t; cbn [ofold]; [reflexivity|].
  rewrite skipn_map. eapply orel_bind; [apply add_map, H|]. intros t' ? ->. apply IH.
Qed.
Lemma build_map f b trs : renaming f -> forall t i, orel (is_map (tmap f)) (build_tree b t trs i) (build_tree b (tmap f t) (map (map f) trs) i).
Proof.
  intros H. induction trs as [|tr trs IH]; intros t i; cbn [build_tree map]; [reflexivity|]. eapply orel_bind; [apply add_track_map, H|]. intros t' ? ->. apply IH.
Qed.
Definition qmap (f : pcmd -> pcmd) (s : sequence) : sequence := mk_seq (map f (seq_cmds s)) (seq_locs s).
Fixpoint sequences_map f b (t : tree) : forall p, orel (is_map (map (qmap f))) (sequences b p t) (sequences b (map f p) (tmap f t)).
Proof.
  destruct t as [es ls]. intros p. rewrite tmap_node. cbn [sequences].
  revert es. fix go 1. intros [|[ec tgt] es]; [reflexivity|]. cbn [map emap]. destruct tgt as [t'|]; cbn [option_map]; [|reflexivity].
  rewrite <- map_app, map_length, locs_tmap. apply orel_bind with (R := eq); [apply orel_refl|]. intros l ? <-.
  eapply orel_bind; [apply (sequences_map f b t' (p ++ ec))|]. intros sub ? ->. eapply orel_bind; [apply go|]. intros rest ? ->.
  cbn [orel]. unfold is_map. cbn [map]. rewrite (map_app (qmap f)). reflexivity.
Qed.
Lemma best_of_map f b ss : forall best, orel (is_map (option_map (fun q => (qmap f (fst q), snd q)))) (best_of b best ss)
  (best_of b (option_map (fun q => (qmap f (fst q), snd q)) best) (map (qmap f) ss)).
Proof.
  induction ss as [|s ss IH]; intros best; cbn [best_of map]; [reflexivity|].
  assert (Ek : keep_sequence b (qmap f s) = keep_sequence b s) by (unfold keep_sequence; cbn [qmap seq_cmds seq_locs]; now rewrite map_length).
  assert (Es : score b (qmap f s) = score b s) by (unfold score; cbn [qmap seq_cmds seq_locs]; now rewrite map_length).
  rewrite Ek, Es. apply orel_bind with (R := eq); [apply orel_refl|]. intros k ? <-. destruct k; [|apply IH].
  apply orel_bind with (R := eq); [apply orel_refl|]. intros sc ? <-. destruct best as [[s0 bsc]|]; cbn [option_map fst snd].
  - destruct (Z.leb bsc sc); [apply (IH (Some (s, sc)))|apply (IH (Some (s0, bsc)))].
  - apply (IH (Some (s, sc))).
Qed.
Lemma best_map f b t : orel (is_map (option_map (qmap f))) (best_sequence b t) (best_sequence b (tmap f t)).
Proof.
  unfold best_sequence. eapply orel_bind; [apply (sequences_map f b t [])|]. intros ss ? ->. eapply orel_bind; [apply (best_of_map f b ss None)|]. intros r ? ->.
  destruct r as [[? ?]|]; reflexivity.
Qed.
Lemma slice_map {A B} (f : A -> B) l i j : orel (is_map (map f)) (slice l i j) (slice (map f l) i j).
Proof. unfold slice. rewrite map_length. destruct (_ && _)%bool; [|reflexivity]. cbn [orel]. unfold is_map. now rewrite skipn_map, firstn_map. Qed.
Lemma extract_track_map f tr ls n ni : renaming f -> forall last acc, orel (is_map (map f)) (extract_track tr ls n ni last acc) (extract_track (map f tr) ls n ni last (map f acc)).
Proof.
  intros H. induction ls as [|l ls IH]; intros last acc; cbn [extract_track].
  - rewrite map_length. destruct last as [li|].
    + destruct (Nat.ltb li (length tr)); [|reflexivity]. eapply orel_bind; [apply slice_map|]. intros s ? ->. cbn [orel]. unfold is_map. now rewrite map_app.
    + eapply orel_bind; [apply slice_map|]. intros s ? ->. cbn [orel]. unfold is_map. now rewrite map_app.
  - eapply orel_bind; [apply slice_map|]. intros s ? ->.
    replace (map f acc ++ map f s ++ [mk_pcmd (Some 0%Z) (Some 0%Z) (Some 0%Z) (CallLoop ni (repeat_count l))]) with
      (map f (acc ++ s ++ [mk_pcmd (Some 0%Z) (Some 0%Z) (Some 0%Z) (CallLoop ni (repeat_count l))])); [apply IH|].
    rewrite !map_app. cbn [map]. now rewrite (rn_call _ H).
Qed.
Lemma extract_tracks_map f s ni trs : renaming f -> forall i, orel (is_map (map (map f))) (extract_tracks trs i s ni) (extract_tracks (map (map f) trs) i (qmap f s) ni).
Proof.
  intros H. induction trs as [|tr trs IH]; intros i; cbn [extract_tracks map]; [reflexivity|]. cbn [qmap seq_cmds seq_locs]. rewrite map_length.
  eapply orel_bind; [apply (extract_track_map f tr _ _ _ H None [])|]. intros t ? ->. eapply orel_bind; [apply IH|]. intros r ? ->. reflexivity.
Qed.
Lemma extract_map f trs s n : renaming f -> orel (is_map (map (map f))) (extract_sequence trs s n) (extract_sequence (map (map f) trs) (qmap f s) n).
Proof.
  intros H. unfold extract_sequence. rewrite map_length, firstn_map. eapply orel_bind; [apply extract_tracks_map, H|]. intros nt ? ->.
  cbn [orel]. unfold is_map. rewrite !map_app, skipn_map. reflexivity.
Qed.
Lemma optimize_fuel_map f b : renaming f -> forall fuel trs n, orel (is_map (map (map f))) (optimize_fuel fuel b trs n) (optimize_fuel fuel b (map (map f) trs) n).
Proof.
  intros H. induction fuel as [|fuel IH]; intros trs n; [reflexivity|]. cbn [optimize_fuel]. rewrite firstn_map.
  eapply orel_bind; [apply (build_map f b _ H empty_tree)|]. intros t ? ->. eapply orel_bind; [apply best_map|]. intros best ? ->.
  destruct best as [s|]; cbn [option_map]; [|reflexivity]. eapply orel_bind; [apply extract_map, H|]. intros trs' ? ->. apply IH.
Qed.
Lemma optimize_map f b trs n : renaming f -> orel (is_map (map (map f))) (optimize_call_loops b trs n) (optimize_call_loops b (map (map f) trs) n).
Proof.
  intros H. unfold optimize_call_loops. assert (E : total_length (firstn n (map (map f) trs)) = total_length (firstn n trs)).
  { unfold total_length. rewrite firstn_map, map_map. f_equal. apply map_ext. intros x. apply map_length. }
  unfold track in *. rewrite E. apply optimize_fuel_map, H.
Qed.
Lemma higher_back d c : higher (- d) (higher d c) = c.
Proof.
  destruct c as [d1 v1 s1 c]. unfold higher. cbn [duration velocity sustain cmd]. f_equal. destruct c; try reflexivity; f_equal; lia.
Qed.
Lemma higher_renaming d : renaming (higher d).
Proof.
  constructor; try (intros [? ? ? []]; reflexivity); try reflexivity.
  intros x y E. apply (f_equal (higher (- d))) in E. now rewrite !higher_back in E.
Qed.
