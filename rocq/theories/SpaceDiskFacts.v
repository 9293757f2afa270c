(** Facts about the space on a disk with recorded accesses. *)
From Coq Require Import Strings.Byte.
From Verif Require Import Base BytesFacts Field Mimc Convert ConvertFacts Space SpaceFacts SpaceCrashFacts Room SpaceDisk.
Local Open Scope nat_scope.

Lemma loopD_app {A S} (f : S -> A -> disk_run S) l1 : forall l2 s d, loopD f (l1 ++ l2) s d = bindD (loopD f l1 s) (fun s' => loopD f l2 s') d.
Proof.
  induction l1 as [|a l1 IH]; intros l2 s d; [reflexivity|]. cbn [app loopD]. unfold bindD at 1 2 3.
  destruct (f s a d) as [d' [s'|]]; [|reflexivity]. rewrite IH. reflexivity.
Qed.

(** * Writing inside the file needs no room *)
Lemma write_room_in (f : file) r pos b : pos < length f -> write_room (f, r) pos [b] = ((write_at f pos [b], r), Ok tt) /\ length (write_at f pos [b]) = length f.
Proof.
  intros P. assert (L : length (write_at f pos [b]) = length f).
  { unfold write_at. rewrite !app_length, firstn_length, skipn_length. cbn [length]. unfold zeros. rewrite repeat_length. lia. }
  split; [|exact L]. unfold write_room. rewrite L. destruct (Nat.leb_spec (length f) (length f + r)); [|lia]. do 2 f_equal. lia.
Qed.
Lemma put_in s pos b : pos < length (d_file s) ->
  put pos [b] s = (mkD (write_at (d_file s) pos [b]) (d_room s) (d_acts s ++ [Put pos]), Ok tt) /\ length (write_at (d_file s) pos [b]) = length (d_file s).
Proof. intros P. destruct (write_room_in (d_file s) (d_room s) pos b P) as [W L]. split; [|exact L]. unfold put. now rewrite W. Qed.

(** * Preparing *)
Lemma write_room_end k r : write_room ((zeros k : file), r) k [x00] = if 1 <=? r then ((zeros (k + 1), r - 1), Ok tt) else ((zeros k, 0), Panic).
Proof.
  assert (W : write_at (zeros k) k [x00] = zeros (k + 1)).
  { unfold write_at, zeros. rewrite repeat_length, Nat.sub_diag. cbn [repeat app length]. rewrite skipn_all2 by (rewrite repeat_length; lia). rewrite firstn_all2 by (rewrite repeat_length; lia).
    replace (k + 1) with (S k) by lia. rewrite <- repeat_cons. reflexivity. }
  assert (LZ : forall j, length (zeros j) = j) by (intros; apply repeat_length).
  unfold write_room. rewrite W, !LZ. destruct (Nat.leb_spec 1 r) as [R|R].
  - destruct (Nat.leb_spec (k + 1) (k + r)); [|lia]. replace (k + r - (k + 1)) with (r - 1) by lia. reflexivity.
  - destruct (Nat.leb_spec (k + 1) (k + r)); [lia|]. assert (r = 0) by lia. subst r. rewrite Nat.add_0_r, Nat.sub_diag. cbn [firstn].
    assert (W0 : write_at (zeros k) k [] = zeros k).
    { reflexivity. }
    rewrite W0, LZ, Nat.sub_diag. reflexivity.
Qed.
Lemma prepare_loop c : forall k r acts,
  loopD (fun (_ : unit) i => put i [x00]) (seq k c) tt (mkD (zeros k) r acts)
  = if c <=? r then (mkD (zeros (k + c)) (r - c) (acts ++ map Put (seq k c)), Ok tt)
    else (mkD (zeros (k + r)) 0 (acts ++ map Put (seq k (r + 1))), Panic).
Proof.
  induction c as [|c IH]; intros k r acts; [cbn; now rewrite Nat.add_0_r, Nat.sub_0_r, app_nil_r|].
  cbn [seq loopD]. unfold bindD at 1. unfold put at 1. cbn [d_file d_room d_acts]. rewrite write_room_end. destruct (Nat.leb_spec 1 r) as [R|R].
  - cbn [fst snd]. replace (k + 1) with (S k) by lia. rewrite IH. replace (r - 1) with (r - 1) by lia.
    destruct (Nat.leb_spec c (r - 1)), (Nat.leb_spec (S c) r); try lia.
    + rewrite <- app_assoc. replace (r - 1 - c) with (r - S c) by lia. replace (S k + c) with (k + S c) by lia. reflexivity.
    + rewrite <- app_assoc. replace (r + 1) with (S (r - 1 + 1)) by lia. cbn [seq map app]. replace (S k + (r - 1)) with (k + r) by lia. reflexivity.
  - destruct (Nat.leb_spec (S c) r); [lia|]. assert (r = 0) by lia. subst r. cbn [fst snd seq map Nat.add]. rewrite Nat.add_0_r. reflexivity.
Qed.
Lemma prepare_d pr n s : n <= 58 ->
  let L := (n + 1) * 2 ^ n / 8 in let r := length (d_file s) + d_room s in
  prepare_space_d pr n s
  = if L <=? r then (mkD (zeros L) (r - L) (d_acts s ++ map Put (seq 0 L)), Ok tt)
    else (mkD (zeros r) 0 (d_acts s ++ map Put (seq 0 (r + 1))), Panic).
Proof.
  intros N L r. unfold prepare_space_d, bindD, empty_file, pureD. rewrite pow2_ok by lia.
  assert (E : ((Z.of_nat n + 1) * 2 ^ Z.of_nat n)%Z = Z.of_nat ((n + 1) * 2 ^ n)) by (rewrite Nat2Z.inj_mul, Nat2Z.inj_pow; lia). rewrite E.
  pose proof (space_fits n N). rewrite usz_in by lia. change 8%Z with (Z.of_nat 8). rewrite <- Nat2Z.inj_div, Nat2Z.id. fold L.
  pose proof (prepare_loop L 0 r (d_acts s)) as P. cbn [zeros repeat Nat.add] in P. exact P.
Qed.

(** * Marking one slot *)
Definition pair_acts (a c : nat) : list act := flat_map (fun i => [Put i; Get (S i)]) (seq a c).
Lemma read_into_len f i buf : length (read_into f i buf) = length buf.
Proof. unfold read_into. rewrite app_length, skipn_length, firstn_length. lia. Qed.
Lemma mark_loop_d pr : forall l s idx buf bb j, length buf = 1 -> length bb = 8 -> j < 8 -> idx + (j + length l) / 8 <= length (d_file s) ->
  exists f' buf' bb', length f' = length (d_file s) /\ length bb' = 8 /\ length buf' = 1 /\
  foldM (mark_bit pr) l (d_file s, idx, buf, bb, j) = Ok (f', idx + (j + length l) / 8, buf', bb', (j + length l) mod 8) /\
  loopD (mark_bit_d pr) l (idx, buf, bb, j) s
  = (mkD f' (d_room s) (d_acts s ++ pair_acts idx ((j + length l) / 8)), Ok (idx + (j + length l) / 8, buf', bb', (j + length l) mod 8)).
Proof.
  induction l as [|b l IH]; intros s idx buf bb j LB L8 J R; cbn [length] in *.
  - rewrite Nat.add_0_r in *. rewrite Nat.div_small, Nat.mod_small by lia. exists (d_file s), buf, bb. repeat split; try assumption.
    + cbn [foldM]. now rewrite Nat.add_0_r.
    + cbn [loopD pair_acts seq flat_map]. rewrite app_nil_r, Nat.add_0_r. destruct s; reflexivity.
  - cbn [foldM loopD]. unfold mark_bit at 1. unfold bindD at 1. unfold mark_bit_d at 1. unfold bindD at 1. unfold pureD at 1.
    unfold set_index. rewrite L8. destruct (Nat.ltb_spec j 8); [|lia]. cbn [bind].
    assert (L8' : length (upd bb j b) = 8) by (now rewrite upd_length).
    destruct (Nat.eqb_spec (S j) 8) as [J8|J8].
    + assert (D : (j + S (length l)) / 8 = S (length l / 8)) by (replace (j + S (length l)) with (length l + 1 * 8) by lia; rewrite Nat.div_add by lia; lia).
      assert (M : (j + S (length l)) mod 8 = length l mod 8) by (replace (j + S (length l)) with (length l + 1 * 8) by lia; now rewrite Nat.mod_add by lia).
      rewrite D, M in *. rewrite bits_to_bytes_pack. cbn [bind]. unfold bindD at 1, pureD at 1. destruct (pack_length8 _ 1 L8') as [PL PB]. destruct (pack (upd bb j b)) as [|e [|]]; try discriminate PL.
      unfold bindD at 1. destruct (put_in s idx e ltac:(lia)) as [P LW]. rewrite P. unfold bindD at 1. unfold get at 1. unfold pureD at 1. cbn [d_file d_room d_acts].
      set (s1 := mkD (write_at (d_file s) idx [e]) (d_room s) ((d_acts s ++ [Put idx]) ++ [Get (S idx)])).
      destruct (IH s1 (S idx) (read_into (write_at (d_file s) idx [e]) (S idx) [e]) (bytes_to_bits (read_into (write_at (d_file s) idx [e]) (S idx) [e])) 0) as (f' & buf' & bb' & LF & LB' & LBF & E1 & E2).
      { now rewrite read_into_len. }
      { now rewrite bytes_to_bits_length, read_into_len. }
      { lia. }
      { cbn [d_file s1 Nat.add]. rewrite LW. lia. }
      cbn [d_file d_room d_acts s1 Nat.add] in LF, E1, E2. exists f', buf', bb'. rewrite LF, LW. repeat split; try assumption.
      * replace (idx + S (length l / 8)) with (S idx + length l / 8) by lia. exact E1.
      * fold s1. replace (idx + S (length l / 8)) with (S idx + length l / 8) by lia. cbn [Nat.add] in *. rewrite E2. unfold pair_acts. cbn [seq flat_map app]. rewrite <- !app_assoc. reflexivity.
    + replace (j + S (length l)) with (S j + length l) in * by lia. unfold pureD at 1.
      destruct (IH s idx buf (upd bb j b) (S j) LB L8' ltac:(lia) R) as (f' & buf' & bb' & LF & LB' & LBF & E1 & E2).
      exists f', buf', bb'. repeat split; assumption.
Qed.

(** The accesses of one slot: reads of its bytes, writes of its bytes, and a read behind it
    when it ends at a byte border. *)
Definition slot_acts (n y : nat) : list act :=
  let a := (n + 1) * y / 8 in let e := (n + 1) * (y + 1) in
  Get a :: pair_acts a (e / 8 - a) ++ (if e mod 8 =? 0 then [] else [Put (e / 8)]).
Lemma slot_arith p w : p / 8 + (p mod 8 + w) / 8 = (p + w) / 8 /\ (p mod 8 + w) mod 8 = (p + w) mod 8.
Proof.
  pose proof (Nat.div_mod p 8 ltac:(lia)) as E. set (q := p / 8) in *. set (r := p mod 8) in *. rewrite E. split.
  - replace (8 * q + r + w) with ((r + w) + q * 8) by lia. rewrite Nat.div_add by lia. lia.
  - replace (8 * q + r + w) with ((r + w) + q * 8) by lia. now rewrite Nat.mod_add by lia.
Qed.
Lemma mark_slot_d_ok pr n s y l : length l = n + 1 -> (Z.of_nat ((n + 1) * y) < two64)%Z -> (n + 1) * (y + 1) <= 8 * length (d_file s) ->
  exists f', length f' = length (d_file s) /\ mark_slot pr n (d_file s) (Z.of_nat y) l = Ok f' /\
  mark_slot_d pr n (Z.of_nat y) l s = (mkD f' (d_room s) (d_acts s ++ slot_acts n y), Ok tt).
Proof.
  intros LL U B. unfold mark_slot, mark_slot_d. assert (E : ((Z.of_nat n + 1) * Z.of_nat y)%Z = Z.of_nat ((n + 1) * y)) by lia. rewrite E.
  unfold bindD at 1, pureD at 1. rewrite usz_in by lia. cbn [bind]. change 8%Z with (Z.of_nat 8). rewrite <- Nat2Z.inj_div, <- Nat2Z.inj_mod, !Nat2Z.id.
  unfold slot_acts. replace ((n + 1) * (y + 1)) with ((n + 1) * y + length l) in * by lia. set (p := (n + 1) * y) in *. cbv zeta.
  destruct (slot_arith p (length l)) as [A1 A2]. pose proof (Nat.mod_upper_bound p 8 ltac:(lia)) as PM.
  assert (EB : (p + length l) / 8 <= length (d_file s)) by (apply Nat.div_le_upper_bound; lia).
  unfold bindD at 1, get at 1. set (s1 := mkD (d_file s) (d_room s) (d_acts s ++ [Get (p / 8)])).
  destruct (mark_loop_d pr l s1 (p / 8) (read_into (d_file s) (p / 8) [x00]) (bytes_to_bits (read_into (d_file s) (p / 8) [x00])) (p mod 8)) as (f' & buf' & bb' & LF & LB' & LBF & E1 & E2).
  { now rewrite read_into_len. }
  { now rewrite bytes_to_bits_length, read_into_len. }
  { exact PM. }
  { cbn [d_file s1]. lia. }
  assert (D : (p mod 8 + length l) / 8 = (p + length l) / 8 - p / 8) by lia.
  cbn [d_file d_room d_acts s1] in LF, E1, E2. rewrite A1, A2 in E1, E2. rewrite D in E2. fold s1 in E2. rewrite E1. cbn [bind]. unfold bindD at 1. rewrite E2.
  destruct (Nat.eqb_spec ((p + length l) mod 8) 0) as [Z0|NZ].
  - exists f'. split; [exact LF|]. split; [reflexivity|]. unfold pureD. rewrite app_nil_r, <- app_assoc. reflexivity.
  - rewrite bits_to_bytes_pack. cbn [bind]. destruct (pack_length8 _ 1 LB') as [PL PB]. destruct (pack bb') as [|e [|]]; try discriminate PL.
    assert (LT : (p + length l) / 8 < length f').
    { rewrite LF. pose proof (Nat.div_mod (p + length l) 8 ltac:(lia)). lia. }
    unfold bindD at 1, pureD at 1. destruct (put_in (mkD f' (d_room s) ((d_acts s ++ [Get (p / 8)]) ++ pair_acts (p / 8) ((p + length l) / 8 - p / 8))) ((p + length l) / 8) e LT) as [P LW].
    cbn [d_file] in LW. rewrite P. cbn [d_file d_room d_acts]. eexists. split; [|split; [reflexivity|]]; [lia|]. rewrite <- !app_assoc. reflexivity.
Qed.

(** * Marking the space *)
Section Mark.
Context {K : prime_ops} (pr : profile) (key m : K) (consts : list K) (n : nat) (dfv : nat -> K).
Hypothesis NN : forall z : K, (0 <= repr z)%Z.
Hypothesis HD : forall x, mimc5_df (fadd (of_Z (Z.of_nat x)) key) m consts = Ok (dfv x).
Hypothesis N : 3 <= n <= 58.
Notation dest x := (low_bits n (dfv x)).
Lemma mark_d_loop : forall c k s, 8 * length (d_file s) = (n + 1) * 2 ^ n ->
  exists g, length g = length (d_file s) /\
  foldM (fun f x => let* (y, x_bits) := mark_target pr key m consts n (Z.of_nat x) in mark_slot pr n f y x_bits) (seq k c) (d_file s) = Ok g /\
  loopD (fun (_ : unit) x => bindD (df x) (fun _ => bindD (pureD (mark_target pr key m consts n (Z.of_nat x))) (fun '(y, x_bits) => mark_slot_d pr n y x_bits))) (seq k c) tt s
  = (mkD g (d_room s) (d_acts s ++ flat_map (fun x => Df x :: slot_acts n (dest x)) (seq k c)), Ok tt).
Proof.
  induction c as [|c IH]; intros k s L.
  - exists (d_file s). cbn. rewrite app_nil_r. destruct s; repeat split.
  - cbn [seq foldM loopD flat_map]. unfold bindD at 1. unfold bindD at 1, df at 1. unfold bindD at 1, pureD at 1.
    rewrite (mark_target_ok pr key m consts n k (dfv k) NN ltac:(lia) (HD k)). cbn [bind].
    pose proof (low_bits_lt n (dfv k)) as LB. pose proof (space_fits n ltac:(lia)) as SF.
    set (s1 := mkD (d_file s) (d_room s) (d_acts s ++ [Df k])).
    destruct (mark_slot_d_ok pr n s1 (dest k) (int_bits n k ++ [true])) as (f1 & LF & E1 & E2).
    { rewrite app_length, int_bits_length. reflexivity. }
    { assert ((n + 1) * dest k <= (n + 1) * 2 ^ n) by (apply Nat.mul_le_mono_l; lia). lia. }
    { cbn [d_file s1]. rewrite L. apply Nat.mul_le_mono_l. lia. }
    cbn [d_file d_room d_acts s1] in LF, E1, E2. fold s1 in E2. rewrite E1, E2. cbn [bind].
    destruct (IH (S k) (mkD f1 (d_room s) ((d_acts s ++ [Df k]) ++ slot_acts n (dest k)))) as (g & LG & G1 & G2); [cbn [d_file]; lia|].
    cbn [d_file d_room d_acts] in LG, G1, G2. exists g. split; [lia|]. split; [exact G1|]. rewrite G2. rewrite <- !app_assoc. reflexivity.
Qed.
Lemma mark_space_d_ok s : 8 * length (d_file s) = (n + 1) * 2 ^ n ->
  exists g, length g = length (d_file s) /\ mark_space pr (d_file s) key m consts n = Ok g /\
  mark_space_d pr key m consts n s = (mkD g (d_room s) (d_acts s ++ flat_map (fun x => Df x :: slot_acts n (dest x)) (seq 0 (2 ^ n))), Ok tt).
Proof.
  intros L. unfold mark_space, mark_space_d, bindD at 1, pureD at 1. rewrite pow2_ok by lia. cbn [bind].
  assert (E : Z.to_nat (2 ^ Z.of_nat n) = 2 ^ n) by (rewrite <- (Nat2Z.id (2 ^ n)), Nat2Z.inj_pow; reflexivity). rewrite E.
  exact (mark_d_loop (2 ^ n) 0 s L).
Qed.
End Mark.

(** * Answering *)
Definition slot_gets (n y : nat) : list act := map Get (seq ((n + 1) * y / 8) (S ((n + 1) * (y + 1) / 8 - (n + 1) * y / 8))).
Lemma read_loop_d : forall l s x idx buf bb j, length buf = 1 -> length bb = 8 -> j < 8 ->
  exists x' buf' bb', length x' = length x + length l /\
  foldM (read_bit (d_file s)) l (x, idx, buf, bb, j) = Ok (x', idx + (j + length l) / 8, buf', bb', (j + length l) mod 8) /\
  loopD read_bit_d l (x, idx, buf, bb, j) s
  = (mkD (d_file s) (d_room s) (d_acts s ++ map Get (seq (S idx) ((j + length l) / 8))), Ok (x', idx + (j + length l) / 8, buf', bb', (j + length l) mod 8)).
Proof.
  induction l as [|b l IH]; intros s x idx buf bb j LB L8 J; cbn [length] in *.
  - rewrite Nat.add_0_r in *. rewrite Nat.div_small, Nat.mod_small by lia. exists x, buf, bb. rewrite !Nat.add_0_r. repeat split.
    cbn [loopD seq map]. rewrite app_nil_r. destruct s; reflexivity.
  - cbn [foldM loopD]. unfold read_bit at 1. unfold bindD at 1. unfold read_bit_d at 1. unfold bindD at 1. unfold pureD at 1.
    unfold index. destruct (nth_error bb j) as [v|] eqn:NE; [|apply nth_error_None in NE; lia]. cbn [bind].
    destruct (Nat.eqb_spec (S j) 8) as [J8|J8].
    + assert (D : (j + S (length l)) / 8 = S (length l / 8)) by (replace (j + S (length l)) with (length l + 1 * 8) by lia; rewrite Nat.div_add by lia; lia).
      assert (M : (j + S (length l)) mod 8 = length l mod 8) by (replace (j + S (length l)) with (length l + 1 * 8) by lia; now rewrite Nat.mod_add by lia).
      rewrite D, M in *. unfold bindD at 1, get at 1. unfold pureD at 1.
      set (s1 := mkD (d_file s) (d_room s) (d_acts s ++ [Get (S idx)])).
      destruct (IH s1 (x ++ [v]) (S idx) (read_into (d_file s) (S idx) buf) (bytes_to_bits (read_into (d_file s) (S idx) buf)) 0) as (x' & buf' & bb' & LX & E1 & E2).
      { now rewrite read_into_len. }
      { now rewrite bytes_to_bits_length, read_into_len, LB. }
      { lia. }
      cbn [d_file d_room d_acts s1 Nat.add] in E1, E2. exists x', buf', bb'. split; [rewrite LX, app_length; cbn [length]; lia|]. split.
      * cbn [bind]. replace (idx + S (length l / 8)) with (S idx + length l / 8) by lia. exact E1.
      * fold s1 in E2. replace (idx + S (length l / 8)) with (S idx + length l / 8) by lia. cbn [Nat.add] in *. rewrite E2. cbn [seq map]. rewrite <- !app_assoc. reflexivity.
    + replace (j + S (length l)) with (S j + length l) in * by lia. unfold pureD at 1. cbn [bind].
      destruct (IH s (x ++ [v]) idx buf bb (S j) LB L8 ltac:(lia)) as (x' & buf' & bb' & LX & E1 & E2).
      exists x', buf', bb'. split; [rewrite LX, app_length; cbn [length]; lia|]. split; assumption.
Qed.
Lemma read_slot_d_ok pr n s y : (Z.of_nat ((n + 1) * y) < two64)%Z ->
  exists bits, read_slot pr (d_file s) n (Z.of_nat y) = Ok bits /\ length bits = n + 1 /\
  read_slot_d pr n (Z.of_nat y) s = (mkD (d_file s) (d_room s) (d_acts s ++ slot_gets n y), Ok bits).
Proof.
  intros U. unfold read_slot, read_slot_d, slot_gets. assert (E : ((Z.of_nat n + 1) * Z.of_nat y)%Z = Z.of_nat ((n + 1) * y)) by lia. rewrite E.
  unfold bindD at 1, pureD at 1. rewrite usz_in by lia. cbn [bind]. change 8%Z with (Z.of_nat 8). rewrite <- Nat2Z.inj_div, <- Nat2Z.inj_mod, !Nat2Z.id.
  replace ((n + 1) * (y + 1)) with ((n + 1) * y + (n + 1)) by lia. set (p := (n + 1) * y) in *. cbv zeta.
  destruct (slot_arith p (n + 1)) as [A1 A2]. pose proof (Nat.mod_upper_bound p 8 ltac:(lia)) as PM.
  unfold bindD at 1, get at 1. set (s1 := mkD (d_file s) (d_room s) (d_acts s ++ [Get (p / 8)])).
  destruct (read_loop_d (seq 0 (n + 1)) s1 [] (p / 8) (read_into (d_file s) (p / 8) [x00]) (bytes_to_bits (read_into (d_file s) (p / 8) [x00])) (p mod 8)) as (x' & buf' & bb' & LX & E1 & E2).
  { now rewrite read_into_len. }
  { now rewrite bytes_to_bits_length, read_into_len. }
  { exact PM. }
  rewrite seq_length in LX, E1, E2. cbn [d_file d_room d_acts s1 length Nat.add] in LX, E1, E2. fold s1 in E2. rewrite E1. cbn [bind]. unfold bindD at 1. rewrite E2.
  exists x'. split; [reflexivity|]. split; [exact LX|]. unfold pureD. cbn [seq map]. rewrite <- app_assoc. cbn [app]. do 5 f_equal. f_equal. lia.
Qed.
Lemma respond_d_ok {K : prime_ops} pr n (N : n <= 63) : forall cs s i (xs : list K) idxs, Forall (fun y => (Z.of_nat ((n + 1) * y) < two64)%Z) cs ->
  exists k xs' idxs', k <= length cs /\
  respond pr (d_file s) n i (map Z.of_nat cs) xs idxs = Ok (xs', idxs') /\
  respond_d pr n i (map Z.of_nat cs) xs idxs s = (mkD (d_file s) (d_room s) (d_acts s ++ flat_map (slot_gets n) (firstn k cs)), Ok (xs', idxs')) /\
  (k < length cs -> length xs' = RESPONSE_COUNT).
Proof.
  induction cs as [|y cs IH]; intros s i xs idxs F.
  - exists 0, xs, idxs. cbn. rewrite app_nil_r. destruct s. repeat split; intros; lia.
  - inversion F as [|? ? FY FR]; subst. cbn [map respond respond_d length]. destruct (read_slot_d_ok pr n s y FY) as (bits & R & LB & RD).
    rewrite R. cbn [bind]. unfold bindD at 1. rewrite RD. unfold bindD at 1, pureD at 1. unfold index.
    destruct (nth_error bits n) as [v|] eqn:NE; [|apply nth_error_None in NE; lia]. cbn [bind]. unfold bindD at 1.
    set (s1 := mkD (d_file s) (d_room s) (d_acts s ++ slot_gets n y)).
    assert (X : exists xs1 idxs1, (if v then let* b := slice bits 0 n in let* x := bits_to_usize pr b in Ok (xs ++ [of_Z x], idxs ++ [i]) else Ok (xs, idxs)) = Ok (xs1, idxs1) /\
      (if v then bindD (pureD (slice bits 0 n)) (fun b => bindD (pureD (bits_to_usize pr b)) (fun x => pureD (Ok (xs ++ [of_Z x], idxs ++ [i])))) else pureD (Ok (xs, idxs))) s1 = (s1, Ok (xs1, idxs1))).
    { destruct v; [|exists xs, idxs; now split]. unfold slice. rewrite LB. destruct (Nat.leb_spec 0 n), (Nat.leb_spec n (n + 1)); try lia. cbn [andb]. rewrite Nat.sub_0_r. cbn [skipn bind].
      rewrite bits_to_usize_val by (rewrite firstn_length; lia). cbn [bind]. eexists _, _. split; [reflexivity|]. unfold bindD, pureD. rewrite bits_to_usize_val by (rewrite firstn_length; lia). reflexivity. }
    destruct X as (xs1 & idxs1 & X1 & X2). rewrite X1, X2. cbn [bind]. destruct (Nat.eqb_spec (length xs1) RESPONSE_COUNT) as [EQ|NEQ].
    + exists 1, xs1, idxs1. cbn [firstn flat_map]. rewrite app_nil_r. repeat split; [lia|intros _; exact EQ].
    + destruct (IH s1 (S i) xs1 idxs1 FR) as (k & xs' & idxs' & KL & E1 & E2 & E3). cbn [d_file d_room d_acts s1] in E1, E2. exists (S k), xs', idxs'. split; [lia|]. split; [exact E1|]. split.
      * fold s1 in E2. rewrite E2. cbn [firstn flat_map]. now rewrite <- app_assoc.
      * intros L. apply E3. lia.
Qed.
