(** The Python scripts that come with the crate: comparing the unsealed file with the
    original, finding the moduli, and the exponentiation benchmark.  Python integers are
    unbounded, so they are [Z] here; [%] and [//] are floor operations, as [Z.modulo]
    and [Z.div].  [Panic] stands for an uncaught exception or for running forever. *)
From Coq Require Import Zpow_facts.
From Verif Require Import Base.
Local Open Scope Z_scope.

(** file_compare.py 6-17: the two lengths printed on line 12, is_right and wrong_count.
    Simplified: the position output of lines 16-17 is switched off in the script. *)
Definition file_compare (data_a data_b : list byte) : Z * Z * bool * Z :=
  let '(is_right, wrong_count) :=
    fold_left (fun '(is_right, wrong_count) i =>
                 if Byte.eqb (nth i data_a x00) (nth i data_b x00) then (is_right, wrong_count)
                 else (false, wrong_count + 1))
              (seq 0 (Nat.min (length data_a) (length data_b))) (true, 0) in
  (Z.of_nat (length data_a), Z.of_nat (length data_b), is_right, wrong_count).

(** prime.py 4-8: the loop on s and t; it does not end for s = 0. *)
Fixpoint split_loop (fuel : nat) (s t : Z) : res (Z * Z) :=
  match fuel with
  | O => Panic
  | S fuel' => if s mod 2 =? 0 then split_loop fuel' (s / 2) (t + 1) else Ok (s, t)
  end.

(** prime.py 13-20: the inner loop.  [Ok false] is the [return False] of line 17. *)
Fixpoint square_loop (fuel : nat) (num t i v : Z) : res bool :=
  match fuel with
  | O => Panic
  | S fuel' =>
    if negb (v =? num - 1)
    then if i =? t - 1 then Ok false
         else square_loop fuel' num t (i + 1) (v ^ 2 mod num)
    else Ok true
  end.

(** prime.py 10-20 for the drawn base a (line 11). *)
Definition trial_base (num s t a : Z) : res bool :=
  let v := Zpow_mod a s num in
  if negb (v =? 1) then square_loop (S (Z.to_nat t)) num t 0 v else Ok true.

(** prime.py 10-21, the five trials; [draws i] is what [random.randrange(2, num - 1)]
    returns in trial i.  It raises an exception when that range is empty. *)
Fixpoint trials (k : nat) (num s t : Z) (draws : list Z) : res bool :=
  match k, draws with
  | O, _ => Ok true
  | S _, [] => Panic
  | S k', a :: draws' =>
    if 2 <? num - 1
    then let* b := trial_base num s t a in
         if b then trials k' num s t draws' else Ok false
    else Panic
  end.

(** prime.py 3-21. *)
Definition rabin_miller (num : Z) (draws : list Z) : res bool :=
  let* (s, t) := split_loop (Z.to_nat (Z.log2 (num - 1)) + 1) (num - 1) 0 in
  trials 5 num s t draws.

(** prime.py 31-50. *)
Definition small_primes : list Z :=
  [2; 3; 5; 7; 11; 13; 17; 19; 23; 29;
   31; 37; 41; 43; 47; 53; 59; 61; 67;
   71; 73; 79; 83; 89; 97; 101; 103; 107;
   109; 113; 127; 131; 137; 139; 149; 151;
   157; 163; 167; 173; 179; 181; 191; 193;
   197; 199; 211; 223; 227; 229; 233; 239;
   241; 251; 257; 263; 269; 271; 277; 281;
   283; 293; 307; 311; 313; 317; 331; 337;
   347; 349; 353; 359; 367; 373; 379; 383;
   389; 397; 401; 409; 419; 421; 431; 433;
   439; 443; 449; 457; 461; 463; 467; 479;
   487; 491; 499; 503; 509; 521; 523; 541;
   547; 557; 563; 569; 571; 577; 587; 593;
   599; 601; 607; 613; 617; 619; 631; 641;
   643; 647; 653; 659; 661; 673; 677; 683;
   691; 701; 709; 719; 727; 733; 739; 743;
   751; 757; 761; 769; 773; 787; 797; 809;
   811; 821; 823; 827; 829; 839; 853; 857;
   859; 863; 877; 881; 883; 887; 907; 911;
   919; 929; 937; 941; 947; 953; 967; 971; 977; 983; 991; 997].

(** prime.py 24-62. *)
Definition is_prime (num : Z) (draws : list Z) : res bool :=
  if num <? 2 then Ok false
  else if existsb (Z.eqb num) small_primes then Ok true
  else if existsb (fun prime => num mod prime =? 0) small_primes then Ok false
  else rabin_miller num draws.

(** prime.py 65-70.  Each round of the loop draws a candidate (line 67) and the bases of
    the primality test; the list gives the draws of the rounds carried out.  The result
    is the candidate returned, or None if all rounds given are used up. *)
Fixpoint get_prime (rounds : list (Z * list Z)) : res (option Z) :=
  match rounds with
  | [] => Ok None
  | (num, draws) :: rounds' =>
    let* b := is_prime num draws in
    if b && (num mod 4 =? 3) then Ok (Some num) else get_prime rounds'
  end.

(** test_modpow.py 19, [int(t / 2)] for t >= 0: the quotient of two integers is the
    double closest to the exact quotient (ties to the even significand, 53 bits), an
    OverflowError if it does not fit a double. *)
Definition to_53_bits (t : Z) : Z :=
  let e := Z.log2 t - 52 in
  if e <=? 0 then t
  else let q := t / 2 ^ e in
       let r := t mod 2 ^ e in
       let up := (2 ^ (e - 1) <? r) || ((r =? 2 ^ (e - 1)) && Z.odd q) in
       (if up then q + 1 else q) * 2 ^ e.
Definition float_half (t : Z) : res Z :=
  if 2 ^ 1025 <=? to_53_bits t then Panic else Ok (to_53_bits t / 2).

(** test_modpow.py 11-21. *)
Fixpoint py_modpow_loop (fuel : nat) (x t p result : Z) : res Z :=
  match fuel with
  | O => Panic
  | S fuel' =>
    if 0 <? t
    then let result := if Z.land t 1 =? 1 then result * x mod p else result in
         let* t := float_half t in
         py_modpow_loop fuel' (x * x mod p) t p result
    else Ok result
  end.
Definition py_modpow (x t p : Z) : res Z := py_modpow_loop (Z.to_nat (Z.log2 t) + 3) x t p 1.
