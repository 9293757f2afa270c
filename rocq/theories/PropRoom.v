(** Property C107: a full disk.  How much room the calls and a whole run of
    seal_and_unseal need, and what is left when there is less.
    Vocabulary: [write_room] and the functions with room from Room, [sealing] from
    PropCrash, [run_crash] from Crash, [saved_length] from LocalFacts, [restores] from
    PropSpot. *)
From Coq Require Import Znumtheory Strings.Byte.
From Verif Require Import Base Sloth Common Depend Prover Verifier Merkle Postorage Crash BytesFacts CommonFacts SealSpec SealFile SealTop SealPad SealZero SealWitness
  ChallengeFacts MerkleFacts SealMeaning ParamFacts PostorageFacts SpotFacts PropSpot LocalFacts PropLocal PropPostorage Driver DriverFacts PropDriver CrashFacts PropCrash Room RoomFacts.
Local Open Scope nat_scope.

(** Padding empties the sealed file first and then needs what it writes.  With less room
    it writes what fits and panics. *)
Theorem C107_pad : forall (origin sealed : file) free data_l unit_l g, copy_and_pad origin data_l unit_l = Ok g ->
  let room := length sealed + free in exists p,
  copy_and_pad_room origin (sealed, free) data_l unit_l =
    if length g <=? room then ((g, room - length g), Ok p) else ((firstn room g, 0), Panic).
Proof. intros. now apply pad_room. Qed.
Print Assumptions C107_pad.
(** So does writing out the original. *)
Theorem C107_compress : forall (f unsealed : file) free data_l unit_l unit_pl c, copy_and_compress f data_l unit_l unit_pl = Ok c ->
  let room := length unsealed + free in exists p,
  copy_and_compress_room f (unsealed, free) data_l unit_l unit_pl =
    if length c <=? room then ((c, room - length c), Ok p) else ((firstn room c, 0), Panic).
Proof. intros. now apply compress_room. Qed.
Print Assumptions C107_compress.
(** When they panic with room enough they panic in any room; the new file has been emptied,
    and its room is free. *)
Theorem C107_refused :
  (forall (origin sealed : file) free data_l unit_l, copy_and_pad origin data_l unit_l = Panic ->
     copy_and_pad_room origin (sealed, free) data_l unit_l = (([], length sealed + free), Panic)) /\
  (forall (f unsealed : file) free data_l unit_l unit_pl, copy_and_compress f data_l unit_l unit_pl = Panic ->
     snd (copy_and_compress_room f (unsealed, free) data_l unit_l unit_pl) = Panic).
Proof.
  split.
  - intros origin sealed free dl ul. unfold copy_and_pad, copy_and_pad_room. destruct (ul =? 0); [reflexivity|discriminate].
  - intros f unsealed free dl ul upl. unfold copy_and_compress, copy_and_compress_room, truncate_room. cbn [fst snd]. destruct (ul =? 0); [reflexivity|]. cbv zeta. intros E.
    apply loop_panics. cut (forall l (g : file), foldM (fun new cnt => let buf := read_file f (cnt * upl) upl in let* b := slice buf 0 ul in Ok (new ++ b)) l g = Panic ->
      foldM (step (compress_body f ul upl)) l (g, length g) = Panic); [intros X; exact (X _ [] E)|]. clear.
    induction l as [|a l IH]; intros g E; cbn [foldM] in *; [discriminate E|]. unfold step at 1, compress_body. cbn [fst snd]. cbv zeta in E |- *.
    destruct (slice (read_file f (a * upl) upl) 0 ul) as [b|]; [|reflexivity]. cbn [bind] in *. rewrite PathFacts.write_end, <- app_length. now apply IH.
Qed.
Print Assumptions C107_refused.
(** Saving does not empty the file: it needs room for what is longer than the old file. *)
Theorem C107_save : forall (pub : file) free key iv, let room := length pub + free in
  save_data_room (pub, free) key iv =
    if saved_length key iv <=? room then ((save_data pub key iv, room - Nat.max (length pub) (saved_length key iv)), Ok tt)
    else ((save_data_upto room pub key iv, 0), Panic).
Proof.
  intros pub free key iv room. pose proof (save_room pub free key iv) as R. cbv zeta in R.
  replace (length (enc_bytes (decimal key) ++ enc_bytes iv)) with (saved_length key iv) in R by (unfold saved_length; rewrite app_length, !enc_bytes_length; lia). exact R.
Qed.
Print Assumptions C107_save.

(** Sealing and unsealing: exactly the growth of the file is needed, none where the file
    has its full length already.  Nothing else changes. *)
Theorem C107_seal : forall H pr params key iv f free, 
  match seal H pr params key iv f with
  | Ok st => if length (s_file st) <=? length f + free
             then seal_room H pr params key iv (f, free) = ((s_file st, length f + free - length (s_file st)), Ok (s_ids st, s_log st))
             else snd (seal_room H pr params key iv (f, free)) = Panic
  | Panic => snd (seal_room H pr params key iv (f, free)) = Panic
  end.
Proof.
  intros H pr params key iv f free. destruct (seal H pr params key iv f) as [st|] eqn:E; [|now apply seal_room_panics].
  destruct (Nat.leb_spec (length (s_file st)) (length f + free)); [now apply seal_fits|eapply seal_full; eauto].
Qed.
Print Assumptions C107_seal.
Theorem C107_unseal : forall H pr params key iv f free, 
  match unseal H pr params key iv f with
  | Ok g => if length g <=? length f + free
            then unseal_room H pr params key iv (f, free) = ((g, length f + free - length g), Ok tt)
            else snd (unseal_room H pr params key iv (f, free)) = Panic
  | Panic => snd (unseal_room H pr params key iv (f, free)) = Panic
  end.
Proof.
  intros H pr params key iv f free. destruct (unseal H pr params key iv f) as [g|] eqn:E; [|now apply unseal_room_panics].
  destruct (Nat.leb_spec (length g) (length f + free)); [now apply unseal_fits|eapply unseal_full; eauto].
Qed.
Print Assumptions C107_unseal.

(** A run, exactly: where it stops, what the three files contain then and what room is
    left.  S0, P0 and U0 are what the files contained before. *)
Theorem C107_run : forall H pr params key iv n m origin g st, sealing H pr params key iv n m origin g st ->
  forall rnd_iv, prepare_params pr (unit_pl params) rnd_iv = Ok (key, iv) ->
  forall (S0 P0 U0 : file) should_unseal free,
  let room1 := length S0 + free in
  let room2 := length P0 + (room1 - length g) in
  let room3 := room2 - Nat.max (length P0) (saved_length key iv) in
  seal_and_unseal_room H pr params rnd_iv origin S0 P0 U0 should_unseal free =
    if room1 <? length g then ((firstn room1 g, P0, U0, 0), Panic)
    else if room2 <? saved_length key iv then ((s_file st, save_data_upto room2 P0 key iv, U0, 0), Panic)
    else if should_unseal then
      if length U0 + room3 <? data_l params then ((g, save_data P0 key iv, firstn (length U0 + room3) origin, 0), Panic)
      else ((g, save_data P0 key iv, origin, length U0 + room3 - data_l params), Ok tt)
    else ((s_file st, save_data P0 key iv, U0, room3), Ok tt).
Proof.
  intros H pr params key iv n m origin g st SG rnd PP S0 P0 U0 su free room1 room2 room3.
  destruct (sg_sizes _ _ _ _ _ _ _ _ _ _ SG) as (Lg & GS & LS & B0). destruct (sg_undo _ _ _ _ _ _ _ _ _ _ SG) as (UE & CE).
  destruct SG as [SET SK KU ML LAY LO EP ES NZ]. unfold seal_and_unseal_room.
  destruct (pad_room origin S0 free (data_l params) (unit_l params) g EP) as (p & R1). rewrite R1. clear R1. fold room1. rewrite Nat.ltb_antisym.
  destruct (Nat.leb_spec (length g) room1) as [C1|C1]; cbn [negb]; [|reflexivity]. rewrite PP.
  rewrite (seal_fits H pr params key iv g (room1 - length g) st ES) by lia. replace (length g + (room1 - length g) - length (s_file st)) with (room1 - length g) by lia.
  pose proof (C107_save P0 (room1 - length g) key iv) as R2. cbv zeta in R2. rewrite R2. clear R2. fold room2. rewrite (Nat.ltb_antisym _ room2).
  destruct (Nat.leb_spec (saved_length key iv) room2) as [C2|C2]; cbn [negb]; [|reflexivity]. fold room3. destruct su; [|reflexivity].
  rewrite (unseal_fits H pr params key iv (s_file st) room3 g UE) by lia. replace (length (s_file st) + room3 - length g) with room3 by lia.
  destruct (compress_room g U0 room3 (data_l params) (unit_l params) (unit_pl params) origin CE) as (q & R3). rewrite R3, LO. rewrite (Nat.ltb_antisym _ (length U0 + room3)).
  destruct (data_l params <=? length U0 + room3); reflexivity.
Qed.
Print Assumptions C107_run.

(** How much room a first run needs: the padded file, the public data and, if it unseals,
    the original once more. *)
Theorem C107_needs : forall H pr params key iv n m origin g st, sealing H pr params key iv n m origin g st ->
  forall rnd_iv, prepare_params pr (unit_pl params) rnd_iv = Ok (key, iv) ->
  forall should_unseal free,
  snd (seal_and_unseal_room H pr params rnd_iv origin [] [] [] should_unseal free) = Ok tt <->
  n * block_pl params + saved_length key iv + (if should_unseal then data_l params else 0) <= free.
Proof.
  intros H pr params key iv n m origin g st SG rnd PP su free. pose proof (C107_run _ _ _ _ _ _ _ _ _ _ SG rnd PP [] [] [] su free) as R. cbv zeta in R. rewrite R. clear R.
  destruct (sg_sizes _ _ _ _ _ _ _ _ _ _ SG) as (Lg & _). cbn [length Nat.add Nat.max]. rewrite <- Lg.
  destruct (Nat.ltb_spec free (length g)); [cbn [snd]; split; [discriminate|destruct su; lia]|].
  destruct (Nat.ltb_spec (free - length g) (saved_length key iv)); [cbn [snd]; split; [discriminate|destruct su; lia]|].
  destruct su; [|cbn [snd]; split; [lia|reflexivity]].
  destruct (Nat.ltb_spec (free - length g - saved_length key iv) (data_l params)); cbn [snd]; split; try discriminate; try lia; reflexivity.
Qed.
Print Assumptions C107_needs.
(** A second run over the files of the first with an iv of the same length needs none. *)
Theorem C107_again : forall H pr params key iv n m origin g st, sealing H pr params key iv n m origin g st ->
  forall rnd_iv, prepare_params pr (unit_pl params) rnd_iv = Ok (key, iv) ->
  forall (S0 P0 U0 : file) should_unseal free, length S0 = n * block_pl params -> length P0 = saved_length key iv -> (should_unseal = true -> length U0 = data_l params) ->
  snd (seal_and_unseal_room H pr params rnd_iv origin S0 P0 U0 should_unseal free) = Ok tt.
Proof.
  intros H pr params key iv n m origin g st SG rnd PP S0 P0 U0 su free L1 L2 L3. pose proof (C107_run _ _ _ _ _ _ _ _ _ _ SG rnd PP S0 P0 U0 su free) as R. cbv zeta in R. rewrite R. clear R.
  destruct (sg_sizes _ _ _ _ _ _ _ _ _ _ SG) as (Lg & _). rewrite L1, L2, Lg.
  destruct (Nat.ltb_spec (n * block_pl params + free) (n * block_pl params)); [lia|].
  destruct (Nat.ltb_spec (saved_length key iv + (n * block_pl params + free - n * block_pl params)) (saved_length key iv)); [lia|].
  destruct su; [|reflexivity]. rewrite (L3 eq_refl).
  match goal with |- snd (if ?a <? ?b then _ else _) = _ => destruct (Nat.ltb_spec a b) end; [lia|reflexivity].
Qed.
Print Assumptions C107_again.

(** Whatever the room, the files a run leaves when it panics for lack of it are ones that
    a run killed at some byte leaves: C90 and C91 say what can be made of them. *)
Theorem C107_like_killed : forall H pr params key iv n m origin g st, sealing H pr params key iv n m origin g st ->
  forall rnd_iv, prepare_params pr (unit_pl params) rnd_iv = Ok (key, iv) ->
  forall S0 P0 U0 should_unseal free S P U room,
  seal_and_unseal_room H pr params rnd_iv origin S0 P0 U0 should_unseal free = ((S, P, U, room), Panic) ->
  run_crash H pr params rnd_iv origin S0 P0 U0 should_unseal S P U /\ room = 0.
Proof.
  intros H pr params key iv n m origin g st SG rnd PP S0 P0 U0 su free S P U room E.
  pose proof (C107_run _ _ _ _ _ _ _ _ _ _ SG rnd PP S0 P0 U0 su free) as R. cbv zeta in R. rewrite E in R. clear E.
  match type of R with _ = if ?b then _ else _ => destruct b end.
  { injection R as -> -> -> ->. split; [|reflexivity]. apply (C90_states _ _ _ _ _ _ _ _ _ _ SG _ PP). right; left. eauto. }
  match type of R with _ = if ?b then _ else _ => destruct b end.
  { injection R as -> -> -> ->. split; [|reflexivity]. apply (C90_states _ _ _ _ _ _ _ _ _ _ SG _ PP). do 3 right. left. eauto. }
  destruct su; [|discriminate]. match type of R with _ = if ?b then _ else _ => destruct b end; [|discriminate].
  injection R as -> -> -> ->. split; [|reflexivity]. apply (C90_states _ _ _ _ _ _ _ _ _ _ SG _ PP). do 5 right. eauto.
Qed.
Print Assumptions C107_like_killed.

(** One would expect a run that cannot finish to stop before the work, or to leave data it
    can use.  Where the padded file fits and the public data does not, the whole file is
    sealed first; then saving panics, and what was saved cannot be loaded. *)
Theorem C107_early_refuted : forall H pr params key iv n m origin g st, sealing H pr params key iv n m origin g st ->
  forall rnd_iv, prepare_params pr (unit_pl params) rnd_iv = Ok (key, iv) ->
  (Z.of_nat (length (decimal key)) < 2 ^ 64)%Z -> (Z.of_nat (length iv) < 2 ^ 64)%Z ->
  forall U0 should_unseal free, n * block_pl params <= free < n * block_pl params + saved_length key iv ->
  exists P, seal_and_unseal_room H pr params rnd_iv origin [] [] U0 should_unseal free = ((s_file st, P, U0, 0), Panic) /\ load_data P = Panic.
Proof.
  intros H pr params key iv n m origin g st SG rnd PP K1 K2 U0 su free L. destruct (sg_sizes _ _ _ _ _ _ _ _ _ _ SG) as (Lg & _).
  pose proof (C107_run _ _ _ _ _ _ _ _ _ _ SG rnd PP [] [] U0 su free) as R. cbv zeta in R. cbn [length Nat.add] in R. rewrite R. clear R.
  destruct (Nat.ltb_spec free (length g)); [lia|]. destruct (Nat.ltb_spec (free - length g) (saved_length key iv)); [|lia].
  eexists. split; [reflexivity|]. rewrite C88_new_file by assumption. destruct (Nat.ltb_spec (free - length g) (saved_length key iv)); [reflexivity|lia].
Qed.
Print Assumptions C107_early_refuted.

(** The driver's runs are of this kind (C90_driver): ten blocks of 63 bytes, 700 free bytes.
    The padded file has 640, the public data 299. *)
Example C107_ex : exists key iv g st P,
  prepare_params Debug 64 (fun _ => x05) = Ok (key, iv) /\
  sealing hone Debug ten_params key iv 10 1 (create_random_file (fun _ => x02) 630) g st /\ saved_length key iv = 299 /\
  seal_and_unseal_room hone Debug ten_params (fun _ => x05) (create_random_file (fun _ => x02) 630) [] [] [] false 700 = ((s_file st, P, [], 0), Panic) /\ load_data P = Panic /\
  snd (seal_and_unseal_room hone Debug ten_params (fun _ => x05) (create_random_file (fun _ => x02) 630) [] [] [] true 1568) = Panic /\
  snd (seal_and_unseal_room hone Debug ten_params (fun _ => x05) (create_random_file (fun _ => x02) 630) [] [] [] true 1569) = Ok tt.
Proof.
  destruct (C90_driver hone Debug ten_params 10 1 ten_ok (mkRun true false false false 0 (fun _ => x02) (fun _ => x05) (fun i => i)) (ten_no_zero _)) as (key & iv & g & st & PP & SG).
  cbn [r_rnd_iv r_rnd_file] in PP, SG. change (unit_pl ten_params) with 64 in PP. change (data_l ten_params) with 630 in SG.
  assert (KI : key = P_512 /\ length iv = 128).
  { assert (PP' := prepare_params_ok Debug 64 (fun _ => x05) eq_refl). rewrite PP in PP'. cbv zeta in PP'. rewrite Nat.eqb_refl in PP'. assert (OI : forall (a b : Z * list byte), Ok a = Ok b -> a = b) by (intros a b X; congruence). apply OI in PP'.
    pose proof (f_equal fst PP') as A. pose proof (f_equal snd PP') as B. cbn [fst snd] in A, B. split; [exact A|]. rewrite B. now rewrite map_length, seq_length. }
  destruct KI as (K & LI).
  assert (SL : saved_length key iv = 299) by (unfold saved_length; rewrite LI, K; vm_compute; reflexivity).
  assert (LD : (Z.of_nat (length (decimal key)) < 2 ^ 64)%Z) by (unfold saved_length in SL; lia).
  destruct (C107_early_refuted _ _ _ _ _ _ _ _ _ _ SG (fun _ => x05) PP LD ltac:(lia) [] false 700 ltac:(rewrite SL; cbn; lia)) as (P & R & L).
  exists key, iv, g, st, P. split; [exact PP|]. split; [exact SG|]. split; [exact SL|]. split; [exact R|]. split; [exact L|].
  pose proof (C107_needs _ _ _ _ _ _ _ _ _ _ SG (fun _ => x05) PP true) as N. split.
  - destruct (snd (seal_and_unseal_room hone Debug ten_params (fun _ => x05) (create_random_file (fun _ => x02) 630) [] [] [] true 1568)) as [[]|] eqn:E; [|reflexivity].
    apply N in E. rewrite SL in E. cbn in E. lia.
  - apply N. rewrite SL. cbn. lia.
Qed.
