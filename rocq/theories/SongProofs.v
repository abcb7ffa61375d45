(** SongProofs.v: proofs for manifests, command line, JSON and converted songs (C29, C41-C44). *)
From Coq Require Import ZArith List Bool Lia ZifyBool ZifyNat String Ascii.
From Verif Require Import SpecPath PathProofs.
From Verif Require Import Base F32 Messages Command Track SeqTree Song Paths Manifest Midi Json Cli SpecSong ProofLib.
From Verif Require Rom.
Import ListNotations.
Open Scope string_scope.
Open Scope Z_scope.
Open Scope list_scope.

(** ** C41 *)
Lemma nth_error_repeat {A} (x y : A) n i : nth_error (repeat x n) i = Some y -> y = x.
Proof. intros H. apply nth_error_In in H. apply repeat_spec in H. exact H. Qed.
Lemma single_slots p : all_slots (manifest_single_song p) /\
  forall bank name sd, slot_is (manifest_single_song p) bank name sd -> input sd = Some p /\ loops sd = true /\ tempo_factor sd = DEFAULT_TEMPO_ADJUST.
Proof.
  split; [reflexivity|]. intros bank name sd (i & j & names & bk & _ & _ & H3 & H4).
  assert (sd = song_def_default p) as ->; [|auto].
  destruct i as [|[|[|i]]]; [injection H3 as <-; apply nth_error_In in H4; cbn [songs] in H4; repeat (destruct H4 as [H4|H4]; [symmetry; exact H4|]); destruct H4..|]. destruct i; discriminate.
Qed.
Lemma select_slots p : all_slots (manifest_file_select p) /\
  forall bank name sd, slot_is (manifest_file_select p) bank name sd ->
    sd = if String.eqb name "File Select" then mk_song_def (Some p) DEFAULT_TEMPO_ADJUST true else mk_song_def None DEFAULT_TEMPO_ADJUST false.
Proof.
  split; [reflexivity|]. intros bank name sd (i & j & names & bk & H1 & H2 & H3 & H4).
  destruct i as [|[|[|i]]]; [| | |destruct i; discriminate]; injection H1 as <- <-; injection H3 as <-; cbn [songs repeat app] in H4;
    do 16 (destruct j as [|j]; [cbn [nth_error] in H2, H4; first [discriminate H2 | injection H2 as <-; injection H4 as <-; reflexivity]|]); destruct j; discriminate.
Qed.

(** ** C42 *)
Lemma omap_nth {A B} (f : A -> outcome B) l : forall r, omap f l = Ok r -> length r = length l /\ forall i x, nth_error l i = Some x -> exists y, nth_error r i = Some y /\ f x = Ok y.
Proof.
  induction l as [|a l IH]; intros r H; cbn [omap] in H.
  - injection H as <-. split; [reflexivity|]. intros [|i] x Hx; discriminate.
  - inv_bind H. inv_bind H. injection H as <-. destruct (IH _ Ha0) as [HL HI]. split; [cbn [length]; lia|].
    intros [|i] x Hx; [injection Hx as <-; exists a0; auto|]. apply HI. exact Hx.
Qed.
Lemma assoc_find k fs : assoc k fs = option_map snd (find (fun p => String.eqb k (fst p)) fs).
Proof. induction fs as [|[k' v] fs IH]; cbn [assoc find fst]; [reflexivity|]. destruct (String.eqb k k'); [reflexivity|exact IH]. Qed.
Lemma jindex_path v k ks : at_path v (k :: ks) = match v with JObj fs => match assoc k fs with Some v' => at_path v' ks | None => None end | _ => None end.
Proof. cbn [at_path]. destruct v; try reflexivity. rewrite assoc_find. destruct (find _ _) as [[? ?]|]; reflexivity. Qed.
Lemma leaf {A} (f : json -> option A) v k : f JNull = None -> f (jindex v k) = match at_path v [k] with Some x => f x | None => None end.
Proof. intros Hf. rewrite jindex_path. unfold jindex. destruct v; try exact Hf. destruct (assoc k fields); cbn [oelse at_path]; [reflexivity|exact Hf]. Qed.
Lemma at_null k ks : at_path JNull (k :: ks) = None. Proof. reflexivity. Qed.
Lemma path_step v k k' ks : at_path (jindex v k) (k' :: ks) = at_path v (k :: k' :: ks).
Proof. rewrite (jindex_path v k). unfold jindex. destruct v; try reflexivity. destruct (assoc k fields); reflexivity. Qed.

Lemma last_char d c : exists x, last_opt (list_ascii_of_string (String c d)) = Some x /\ substring (String.length d) 1 (String c d) = String x "".
Proof.
  revert c. induction d as [|a d IH]; intros c; [exists c; split; reflexivity|]. destruct (IH a) as (x & E1 & E2). exists x. split; [|exact E2].
  rewrite <- E1. reflexivity.
Qed.
Lemma prefix_slash s : prefix "/" s = is_absolute s.
Proof. destruct s as [|c s]; [reflexivity|]. cbn [prefix is_absolute]. destruct (ascii_dec "/" c) as [<-|H]; [destruct s; reflexivity|]. symmetry. apply Ascii.eqb_neq. congruence. Qed.
Lemma resolve_is dir s : (if is_absolute s then s else join dir s) = resolve dir s.
Proof.
  unfold resolve. rewrite prefix_slash. destruct (is_absolute s) eqn:Ea; [reflexivity|]. unfold join. rewrite Ea. destruct dir as [|c dir]; [reflexivity|].
  destruct (last_char dir c) as (x & E1 & E2). unfold ends_with_slash. rewrite E1. cbn [String.length]. rewrite Nat.sub_succ, Nat.sub_0_r, E2.
  replace (String x "" =? "/")%string with (Ascii.eqb x "/"); [reflexivity|]. cbn. now destruct (Ascii.eqb x "/").
Qed.
Lemma song_def_new_ok v dir sd : song_def_new v dir = Ok sd <->
  (exists s, at_path v ["input"%string] = Some (JStr s) /\ input sd = Some (resolve dir s)) /\
  loops sd = (match at_path v ["loop"%string] with Some (JBool x) => x | _ => true end) /\
  tempo_factor sd = (match at_path v ["tempoAdjust"%string] with Some (JNum (JInt n)) => f32_of_f64 (f64_of_Z n) | Some (JNum (JFloat x)) => f32_of_f64 x | _ => DEFAULT_TEMPO_ADJUST end).
Proof.
  unfold song_def_new. rewrite (leaf as_str v "input" eq_refl), (leaf as_f64 v "tempoAdjust" eq_refl), (leaf as_bool v "loop" eq_refl).
  assert (Ed : f32_of_f64 (f64_of_f32 DEFAULT_TEMPO_ADJUST) = DEFAULT_TEMPO_ADJUST) by (vm_compute; reflexivity).
  assert (Et : f32_of_f64 (oelse match at_path v ["tempoAdjust"%string] with Some x => as_f64 x | None => None end (f64_of_f32 DEFAULT_TEMPO_ADJUST)) =
    (match at_path v ["tempoAdjust"%string] with Some (JNum (JInt n)) => f32_of_f64 (f64_of_Z n) | Some (JNum (JFloat x)) => f32_of_f64 x | _ => DEFAULT_TEMPO_ADJUST end)).
  { destruct (at_path v ["tempoAdjust"%string]) as [[| |[n|x]| | |]|]; first [exact Ed | reflexivity]. }
  assert (El : oelse match at_path v ["loop"%string] with Some x => as_bool x | None => None end true = (match at_path v ["loop"%string] with Some (JBool x) => x | _ => true end)).
  { destruct (at_path v ["loop"%string]) as [[]|]; reflexivity. }
  rewrite Et, El.
  split.
  - intros H. inv_bind H. injection H as <-. cbn [input loops tempo_factor].
    destruct (at_path v ["input"%string]) as [[| | |s| |]|]; try discriminate Ha. injection Ha as <-. split; [exists s; split; [|rewrite resolve_is]; reflexivity|split; reflexivity].
  - intros ((s & -> & Hi) & Hl & Ht). cbn [as_str or_panic bind]. destruct sd as [i t l]. cbn [input loops tempo_factor] in *. subst. rewrite resolve_is. reflexivity.
Qed.
Lemma song_def_new_panic v dir : (exists sd, song_def_new v dir = Ok sd) \/ (song_def_new v dir = Panic PUnwrap /\ ~ exists s, at_path v ["input"%string] = Some (JStr s)).
Proof.
  unfold song_def_new. rewrite (leaf as_str v "input" eq_refl). destruct (at_path v ["input"%string]) as [x|]; [|right; split; [reflexivity|intros [s [=]]]].
  destruct x; cbn [as_str or_panic bind]; first [left; eexists; reflexivity | right; split; [reflexivity|intros [s [=]]]].
Qed.
Lemma omap_cases {A B} (f : A -> outcome B) l p : (forall x, In x l -> (exists y, f x = Ok y) \/ f x = Panic p) -> (exists r, omap f l = Ok r) \/ (omap f l = Panic p /\ exists x, In x l /\ f x = Panic p).
Proof.
  induction l as [|a l IH]; intros H; cbn [omap]; [left; eauto|]. destruct (H a (or_introl eq_refl)) as [[y ->]|E]; [|right; rewrite E; split; [reflexivity|exists a; split; [left; reflexivity|exact E]]].
  cbn [bind]. destruct IH as [[r ->]|[-> (x & Hx & Ex)]]; [intros x Hx; apply H; right; exact Hx|left; cbn [bind]; eauto|right; split; [reflexivity|]; exists x; split; [right; exact Hx|exact Ex]].
Qed.

Lemma bank_new_spec v bank bname names dir bk : bank_new (jindex v bank) bname names dir = Ok bk ->
  length (songs bk) = length names /\ forall j name sd, nth_error names j = Some name -> nth_error (songs bk) j = Some sd -> slot_spec v dir bank name sd.
Proof.
  unfold bank_new. intros H. inv_bind H. injection H as <-. cbn [songs]. apply omap_nth in Ha. destruct Ha as [HL HI]. split; [exact HL|].
  intros j name sd Hn Hs. destruct (HI j name Hn) as (y & Hy & E). rewrite Hs in Hy. injection Hy as <-.
  apply song_def_new_ok in E. rewrite !path_step in E. destruct E as (E1 & E2 & E3). constructor; assumption.
Qed.
Lemma manifest_slots v dir m : manifest_new v dir = Ok m -> all_slots m /\ forall bank name sd, slot_is m bank name sd -> slot_spec v dir bank name sd.
Proof.
  unfold manifest_new. intros H. inv_bind H. inv_bind H. inv_bind H. injection H as <-.
  apply bank_new_spec in Ha, Ha0, Ha1. destruct Ha as [L0 S0], Ha0 as [L1 S1], Ha1 as [L2 S2]. split.
  - unfold all_slots. cbn [map]. rewrite L0, L1, L2. reflexivity.
  - intros bank name sd (i & j & names & bk & H1 & H2 & H3 & H4). destruct i as [|[|[|i]]]; [| | |destruct i; discriminate];
      injection H1 as <- <-; injection H3 as <-; eauto.
Qed.
Lemma bank_new_cases v bname names dir : (exists bk, bank_new v bname names dir = Ok bk) \/
  (bank_new v bname names dir = Panic PUnwrap /\ exists name, In name names /\ ~ exists s, at_path v [name; "input"%string] = Some (JStr s)).
Proof.
  unfold bank_new. destruct (omap_cases (fun n => song_def_new (jindex v n) dir) names PUnwrap) as [[r ->]|[-> (x & Hx & Ex)]].
  - intros x _. destruct (song_def_new_panic (jindex v x) dir) as [H|[H _]]; auto.
  - left. cbn [bind]. eauto.
  - right. split; [reflexivity|]. exists x. split; [exact Hx|]. destruct (song_def_new_panic (jindex v x) dir) as [[sd H]|[_ H]]; [congruence|]. rewrite path_step in H. exact H.
Qed.
Lemma manifest_fails v dir : (exists m, manifest_new v dir = Ok m) \/
  (manifest_new v dir = Panic PUnwrap /\ exists bank names name, In (bank, names) slots /\ In name names /\ ~ exists s, at_path v [bank; name; "input"%string] = Some (JStr s)).
Proof.
  unfold manifest_new.
  destruct (bank_new_cases (jindex v "overworld") "overworld" OVERWORLD_SONGS dir) as [[b0 ->]|[-> (n & Hn & E)]]; cbn [bind].
  2: { right. split; [reflexivity|]. exists "overworld"%string, OVERWORLD_SONGS, n. split; [left; reflexivity|]. split; [exact Hn|]. rewrite path_step in E. exact E. }
  destruct (bank_new_cases (jindex v "indoor") "indoor" INDOOR_SONGS dir) as [[b1 ->]|[-> (n & Hn & E)]]; cbn [bind].
  2: { right. split; [reflexivity|]. exists "indoor"%string, INDOOR_SONGS, n. split; [right; left; reflexivity|]. split; [exact Hn|]. rewrite path_step in E. exact E. }
  destruct (bank_new_cases (jindex v "ending") "ending" ENDING_SONGS dir) as [[b2 ->]|[-> (n & Hn & E)]]; cbn [bind]; [left; eauto|].
  right. split; [reflexivity|]. exists "ending"%string, ENDING_SONGS, n. split; [right; right; left; reflexivity|]. split; [exact Hn|]. rewrite path_step in E. exact E.
Qed.
Lemma slot_at m v dir bank names name : manifest_new v dir = Ok m -> In (bank, names) slots -> In name names -> exists sd, slot_is m bank name sd.
Proof.
  intros H Hb Hn. apply In_nth_error in Hb, Hn. destruct Hb as [i Hi], Hn as [j Hj]. destruct (manifest_slots v dir m H) as [HA _]. unfold all_slots in HA.
  assert (E : nth_error (map (fun bk => length (songs bk)) m) i = Some (length names)) by (rewrite HA; exact (map_nth_error (fun s : string * list string => length (snd s)) _ _ Hi)).
  destruct (nth_error m i) as [bk|] eqn:Em.
  - rewrite (map_nth_error _ _ _ Em) in E. injection E as E. destruct (nth_error (songs bk) j) as [sd|] eqn:Es.
    + exists sd, i, j, names, bk. auto.
    + apply nth_error_None in Es. assert (j < length names)%nat by (apply nth_error_Some; congruence). lia.
  - apply nth_error_None in Em. assert (i < length (map (fun bk => length (songs bk)) m))%nat by (apply nth_error_Some; congruence). rewrite map_length in *. lia.
Qed.

(** ** C43 *)
Lemma digit_agrees c : digit_value c = hex_digit c.
Proof. destruct c as [[] [] [] [] [] [] [] []]; vm_compute; reflexivity. Qed.
Lemma digit_range c d : hex_digit c = Some d -> 0 <= d < 16.
Proof.
  unfold hex_digit. cbv zeta. set (n := Z.of_nat (nat_of_ascii c)).
  destruct ((48 <=? n) && (n <=? 57)) eqn:E1; [intros [= <-]; lia|]. destruct ((97 <=? n) && (n <=? 102)) eqn:E2; [intros [= <-]; lia|].
  destruct ((65 <=? n) && (n <=? 70)) eqn:E3; [intros [= <-]; lia|discriminate].
Qed.
Fixpoint horner (s : string) (acc : Z) : option Z :=
  match s with EmptyString => Some acc | String c s' => match hex_digit c with Some d => horner s' (acc * 16 + d) | None => None end end.
Lemma horner_ge s : forall acc n, 0 <= acc -> horner s acc = Some n -> acc <= n.
Proof. induction s as [|c s IH]; intros acc n Ha H; cbn [horner] in H; [injection H as <-; lia|]. destruct (hex_digit c) eqn:E; [|discriminate]. apply digit_range in E. apply IH in H; lia. Qed.
Lemma parse_horner s : forall acc, 0 <= acc < 2 ^ 32 -> parse_digits s acc = match horner s acc with Some n => if n <? 2 ^ 32 then Some n else None | None => None end.
Proof.
  induction s as [|c s IH]; intros acc Ha; cbn [parse_digits horner].
  - destruct (Z.ltb_spec acc (2 ^ 32)); [reflexivity|lia].
  - destruct (hex_digit c) as [d|] eqn:E; [|reflexivity]. apply digit_range in E.
    destruct (Z.ltb_spec (acc * 16 + d) (2 ^ 32)) as [Hl|Hl].
    + destruct (Z.ltb_spec (acc * 16) (2 ^ 32)); [|lia]. apply IH. lia.
    + replace (if acc * 16 <? 2 ^ 32 then @None Z else None) with (@None Z) by (destruct (_ <? _); reflexivity).
      destruct (horner s (acc * 16 + d)) as [n|] eqn:Eh; [|reflexivity]. apply horner_ge in Eh; [|lia]. destruct (Z.ltb_spec n (2 ^ 32)); [lia|reflexivity].
Qed.
Lemma horner_app s t : forall acc, horner (s ++ t) acc = match horner s acc with Some n => horner t n | None => None end.
Proof. induction s as [|c s IH]; intros acc; cbn [append horner]; [reflexivity|]. destruct (hex_digit c); [apply IH|reflexivity]. Qed.
Lemma string_snoc s : s = ""%string \/ exists t c, s = (t ++ String c "")%string.
Proof. induction s as [|c s IH]; [left; reflexivity|right]. destruct IH as [->|(t & d & ->)]; [exists ""%string, c; reflexivity|exists (String c t), d; reflexivity]. Qed.
Lemma snoc_length t c : String.length (t ++ String c "") = S (String.length t).
Proof. induction t as [|d t IH]; cbn [append String.length]; [reflexivity|]. rewrite IH. reflexivity. Qed.
Lemma hex_horner s n : hex_digits s n <-> horner s 0 = Some n.
Proof.
  split.
  - intros H. induction H as [|s c n d _ IH Hd]; [reflexivity|]. rewrite horner_app, IH. cbn [horner]. rewrite <- digit_agrees, Hd. f_equal. lia.
  - remember (String.length s) as k eqn:Ek. revert s n Ek. induction k as [|k IH]; intros s n Ek H; (destruct (string_snoc s) as [->|(t & c & ->)]; [|try rewrite snoc_length in Ek]).
    + injection H as <-. constructor.
    + discriminate.
    + discriminate.
    + rewrite horner_app in H. destruct (horner t 0) as [m|] eqn:Em; [|discriminate]. cbn [horner] in H. destruct (hex_digit c) as [d|] eqn:Ed; [|discriminate]. injection H as <-.
      replace (m * 16 + d) with (16 * m + d) by lia. apply hd_snoc; [apply IH; [lia|exact Em]|rewrite digit_agrees; exact Ed].
Qed.
Lemma plus_not_digit : hex_digit "+"%char = None. Proof. reflexivity. Qed.
Lemma radix_ok s n : from_str_radix_16 s = Some n <-> hex_number s n /\ n < 2 ^ 32.
Proof.
  assert (HP : forall t, t <> ""%string -> (parse_digits t 0 = Some n <-> hex_digits t n /\ n < 2 ^ 32)).
  { intros t Ht. rewrite parse_horner by lia. rewrite hex_horner. destruct (horner t 0) as [m|]; [|split; [discriminate|intros [[=] _]]].
    destruct (Z.ltb_spec m (2 ^ 32)); (split; [intros [= ->]; auto|intros [[= ->] ?]; auto; lia]). }
  unfold hex_number, from_str_radix_16. destruct s as [|c s]; [split; [discriminate|]; intros [(t & [<-|[=]] & Ht & _) _]; contradiction Ht; reflexivity|].
  destruct (Ascii.eqb_spec c "+") as [->|Hc].
  - destruct s as [|c' s'].
    + split; [discriminate|]. intros [(t & [<-|[= <-]] & Ht & Hd) _]; [|contradiction Ht; reflexivity]. apply hex_horner in Hd. cbn in Hd. discriminate.
    + rewrite HP by discriminate. split.
      * intros [H1 H2]. split; [|exact H2]. exists (String c' s'). split; [right; reflexivity|]. split; [discriminate|exact H1].
      * intros [(t & [<-|[= <-]] & Ht & Hd) H2]; [|auto]. apply hex_horner in Hd. cbn [horner] in Hd. rewrite plus_not_digit in Hd. discriminate.
  - rewrite HP by discriminate. split.
    + intros [H1 H2]. split; [|exact H2]. exists (String c s). split; [left; reflexivity|]. split; [discriminate|exact H1].
    + intros [(t & [<-|[= E1 E2]] & Ht & Hd) H2]; [auto|contradiction].
Qed.
Lemma bank_addrs a b c : (forall na nb nc, (hex_number a na /\ na < 2 ^ 32) -> (hex_number b nb /\ nb < 2 ^ 32) -> (hex_number c nc /\ nc < 2 ^ 32) ->
    read_bank_addrs (Some [a; b; c]) = Ok [na; nb; nc]) /\
  ((exists s, In s [a; b; c] /\ ~ exists n, hex_number s n /\ n < 2 ^ 32) -> read_bank_addrs (Some [a; b; c]) = Err EParseInt).
Proof.
  split.
  - intros na nb nc H1 H2 H3. apply radix_ok in H1, H2, H3. unfold read_bank_addrs. cbn [mapM]. rewrite H1, H2, H3. reflexivity.
  - intros (s & Hs & Hn). assert (E : from_str_radix_16 s = None).
    { destruct (from_str_radix_16 s) as [n|] eqn:E; [|reflexivity]. apply radix_ok in E. contradiction Hn. eauto. }
    unfold read_bank_addrs. cbn [mapM]. destruct Hs as [->|[->|[->|[]]]]; rewrite E; try reflexivity; destruct (from_str_radix_16 a); try reflexivity; destruct (from_str_radix_16 b); reflexivity.
Qed.

Lemma rsplit_dot_spec s b a : rsplit_dot s = Some (b, a) -> s = (b ++ String "." a)%string.
Proof.
  revert b a. induction s as [|c s IH]; intros b a H; cbn [rsplit_dot] in H; [discriminate|].
  destruct (rsplit_dot s) as [[b' a']|] eqn:E.
  - injection H as <- <-. cbn [append]. f_equal. apply IH. reflexivity.
  - destruct (Ascii.eqb_spec c "."); [|discriminate]. injection H as <- <-. subst c. reflexivity.
Qed.
Lemma rsplit_dot_last b a : rsplit_dot a = None -> rsplit_dot (b ++ String "." a) = Some (b, a).
Proof. intros Ha. induction b as [|c b IH]; cbn [append rsplit_dot]; [rewrite Ha; reflexivity|]. rewrite IH. reflexivity. Qed.
Lemma extension_mid p : extension p = Some "mid"%string <-> mid_file p.
Proof.
  assert (Hm : mid_file p <-> exists stem, stem <> "" /\ file_name p = Some (stem ++ ".mid")%string).
  { unfold mid_file. split; intros (stem & H1 & H2); exists stem; (split; [exact H1|]); apply file_name_names; exact H2. }
  rewrite Hm. unfold extension. destruct (file_name p) as [f|]; [|split; [discriminate|intros (s & _ & [=])]]. split.
  - destruct (rsplit_dot f) as [[b a]|] eqn:E; [|discriminate]. destruct (String.eqb_spec b ""); [discriminate|]. intros [= ->]. exists b. split; [assumption|].
    f_equal. apply rsplit_dot_spec in E. exact E.
  - intros (stem & Hs & [= ->]). change (stem ++ ".mid")%string with (stem ++ String "." "mid")%string. rewrite rsplit_dot_last by reflexivity.
    destruct (String.eqb_spec stem ""); [contradiction|reflexivity].
Qed.
Lemma converter_choice b w order optimize p tf :
  (mid_file p -> converter b w order optimize p tf = song_from_midi_file b w order optimize p tf) /\
  (~ mid_file p -> converter b w order optimize p tf = from_json (json_file w p)).
Proof.
  unfold converter. split; intros H.
  - apply extension_mid in H. rewrite H. reflexivity.
  - destruct (extension p) as [e|] eqn:E; [|reflexivity]. destruct (String.eqb_spec e "mid") as [->|]; [|reflexivity]. apply extension_mid in E. contradiction.
Qed.

(** ** C44 *)
Lemma de_u8_ok p : u8 p -> de_u8 (jint p) = Some p.
Proof. unfold u8, de_u8, de_uint, jint. intros H. destruct ((0 <=? p) && (p <? 2 ^ 8)) eqn:E; [reflexivity|lia]. Qed.
Lemma de_usize_ok n : Z.of_nat n < 2 ^ 64 -> de_usize (jnat n) = Some n.
Proof. intros H. unfold de_usize, de_uint, jnat, jint. destruct ((0 <=? Z.of_nat n) && (Z.of_nat n <? 2 ^ 64)) eqn:E; [|lia]. cbn [option_map]. rewrite Nat2Z.id. reflexivity. Qed.
Lemma de_opt_ok o : option_ok o -> de_opt_u8 (opt_to_json o) = Some o.
Proof. destruct o as [n|]; [|reflexivity]. intros H. cbn [opt_to_json de_opt_u8]. unfold jint at 1. unfold de_opt_u8. fold (jint n). rewrite (de_u8_ok n H). reflexivity. Qed.
Lemma de_command_ok c : command_ok c -> de_command (command_to_json c) = Some c.
Proof.
  destruct c; intros H; cbn [command_ok] in H; repeat match goal with H : _ /\ _ |- _ => destruct H end;
  try reflexivity;
  unfold command_to_json; cbn [command_fields map]; unfold de_command;
  try (match goal with |- context [String.eqb ?x "CallLoop"] => change (String.eqb x "CallLoop") with false end; cbv iota; unfold jint at 1; fold (jint p); rewrite de_u8_ok by assumption; reflexivity);
  try (match goal with |- context [String.eqb ?x "CallLoop"] => change (String.eqb x "CallLoop") with false end; cbv iota; cbn [length Nat.ltb Nat.leb mapM]; rewrite ?de_u8_ok by assumption; reflexivity).
  change (String.eqb "CallLoop" "CallLoop") with true. cbv iota. change (jint (Z.of_nat target)) with (jnat target).
  rewrite de_usize_ok by assumption. rewrite de_u8_ok by assumption. reflexivity.
Qed.
Lemma mapM_ok {A} (f : json -> option A) (g : A -> json) (P : A -> Prop) l : (forall x, P x -> f (g x) = Some x) -> Forall P l -> mapM f (map g l) = Some l.
Proof. intros H HF. induction HF as [|x l Hx _ IH]; cbn [map mapM]; [reflexivity|]. rewrite (H x Hx), IH. reflexivity. Qed.
Lemma de_pcmd_ok c : option_ok (duration c) /\ option_ok (velocity c) /\ option_ok (sustain c) /\ command_ok (cmd c) -> de_pcmd (pcmd_to_json c) = Some c.
Proof.
  destruct c as [d ve su c]. cbn [duration velocity sustain cmd]. intros (H1 & H2 & H3 & H4). unfold pcmd_to_json, de_pcmd. cbn [duration velocity sustain cmd].
  unfold opt_field, req, field. cbn [filter fst]. repeat match goal with |- context [String.eqb ?x ?y] => let e := eval vm_compute in (String.eqb x y) in change (String.eqb x y) with e end.
  cbv iota. rewrite !de_opt_ok by assumption. rewrite de_command_ok by assumption. reflexivity.
Qed.
Lemma de_track_ok t : Forall (fun c => option_ok (duration c) /\ option_ok (velocity c) /\ option_ok (sustain c) /\ command_ok (cmd c)) t -> de_track (track_to_json t) = Some t.
Proof. intros H. unfold track_to_json, de_track, req, field. cbn [filter fst]. change (String.eqb "commands" "commands") with true. cbv iota. cbn [de_vec]. exact (mapM_ok _ _ _ t de_pcmd_ok H). Qed.
Lemma de_part_ok p : Forall (fun i => Z.of_nat i < 2 ^ 64) p -> de_part (part_to_json p) = Some p.
Proof. intros H. unfold part_to_json, de_part, req, field. cbn [filter fst]. change (String.eqb "tracks" "tracks") with true. cbv iota. cbn [de_vec]. exact (mapM_ok _ _ _ p de_usize_ok H). Qed.
Lemma song_round_trip s : song_ok s -> from_json (Some (song_to_json s)) = Ok s.
Proof.
  intros [H1 H2]. unfold from_json. cbn [or_panic bind]. unfold song_to_json, de_song, req, field. cbn [filter fst].
  repeat match goal with |- context [String.eqb ?x ?y] => let e := eval vm_compute in (String.eqb x y) in change (String.eqb x y) with e end. cbv iota. cbn [de_vec].
  rewrite (mapM_ok _ _ _ (parts s) de_part_ok H1), (mapM_ok _ _ _ (tracks s) de_track_ok H2). destruct s. reflexivity.
Qed.
(** Different songs have different JSON values. *)
Lemma song_json_injective s1 s2 : song_ok s1 -> song_ok s2 -> song_to_json s1 = song_to_json s2 -> s1 = s2.
Proof. intros H1 H2 E. apply song_round_trip in H1, H2. rewrite E in H1. congruence. Qed.

(** ** C29 *)
Lemma convert_voices_spec b voices tpb mt tf : forall trs, convert_voices b voices tpb mt tf = Ok trs -> voice_tracks b voices tpb mt tf trs.
Proof.
  induction voices as [|ev voices IH]; intros trs H; cbn [convert_voices] in H.
  - injection H as <-. exists []. split; [constructor|reflexivity].
  - inv_bind H. inv_bind H. destruct (IH _ Ha0) as (ts & HF & E). exists (a :: ts). split; [constructor; assumption|]. cbn [filter].
    destruct a; injection H as <-; rewrite E; reflexivity.
Qed.
Lemma voice_tracks_length b voices tpb mt tf trs : voice_tracks b voices tpb mt tf trs -> (length trs <= length voices)%nat.
Proof.
  intros (ts & HF & ->). assert (E : length voices = length ts) by (clear -HF; induction HF; cbn [length]; congruence). rewrite E. clear HF E. induction ts as [|t ts IH]; cbn [filter length]; [lia|]. destruct t; cbn [length]; lia.
Qed.
Lemma extract_tracks_length trs : forall i s n r, extract_tracks trs i s n = Ok r -> length r = length trs.
Proof.
  induction trs as [|t trs IH]; intros i s n r H; cbn [extract_tracks] in H; [injection H as <-; reflexivity|].
  cbv zeta in H. inv_bind H. inv_bind H. injection H as <-. cbn [length]. rewrite (IH _ _ _ _ Ha0). reflexivity.
Qed.
Lemma extract_length trs s n r : (n <= length trs)%nat -> extract_sequence trs s n = Ok r -> length r = S (length trs).
Proof.
  intros Hn H. unfold extract_sequence in H. inv_bind H. injection H as <-. apply extract_tracks_length in Ha. rewrite !app_length, skipn_length, Ha, firstn_length. cbn [length]. lia.
Qed.
Lemma optimize_length fuel b : forall trs n r, (n <= length trs)%nat -> optimize_fuel fuel b trs n = Ok r -> (length trs <= length r)%nat.
Proof.
  induction fuel as [|fuel IH]; intros trs n r Hn H; cbn [optimize_fuel] in H; [discriminate|]. inv_bind H. inv_bind H. destruct a0 as [s|]; [|injection H as <-; lia].
  inv_bind H. apply extract_length in Ha1; [|exact Hn]. apply IH in H; lia.
Qed.
Lemma song_shape b voices tpb mt tf optimize s : song_from_midi b voices tpb mt tf optimize = Ok s ->
  exists trs, voice_tracks b voices tpb mt tf trs /\ (length trs <= length voices)%nat /\ parts s = [seq 0 (length trs)] /\
    (length trs <= length (tracks s))%nat /\ (optimize = false -> tracks s = trs).
Proof.
  unfold song_from_midi. intros H. inv_bind H. cbv zeta in H. apply convert_voices_spec in Ha. exists a. split; [exact Ha|]. split; [exact (voice_tracks_length _ _ _ _ _ _ Ha)|].
  destruct optimize.
  - inv_bind H. injection H as <-. cbn [parts tracks]. split; [reflexivity|]. split; [|discriminate]. eapply optimize_length; [|exact Ha0]. lia.
  - injection H as <-. cbn [parts tracks]. auto.
Qed.
