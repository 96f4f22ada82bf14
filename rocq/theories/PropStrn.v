(* Property C64: byte streams and searching in strings. *)
From Coq Require Import ZArith Lia List Bool ZifyBool ZifyNat.
From Verif Require Import Word Machine MachineProofs VarModel ReadModel BwModel PropBw BlkModel PropBlk PropMem ParseModel PropParse TextModel PropText StrnModel.
Import ListNotations.
Open Scope Z_scope.

(* ---------- specification ---------- *)
(* pat occurs in text from position i on *)
Definition occurs (text pat : list Z) (i : nat) : Prop := firstn (length pat) (skipn i text) = pat.
(* the first place among the first count positions, or -1 *)
Inductive search (S count : Z) (text pat : list Z) : Z -> Prop :=
| s_found : forall i, Z.of_nat i < count -> (i < length text)%nat -> occurs text pat i -> (forall j, (j < i)%nat -> ~ occurs text pat j) -> search S count text pat (u32 (S + Z.of_nat i))
| s_missing : (forall j, Z.of_nat j < count -> ~ occurs text pat j) -> search S count text pat (u32 (-1)).

(* ---------- streams ---------- *)
Definition bits8 := [0; 1; 2; 3; 4; 5; 6; 7].
Fixpoint bsum (f : Z -> bool) (w : Z -> Z) (l : list Z) : Z := match l with [] => 0 | j :: l => w j * Z.b2z (f j) + bsum f w l end.
Lemma bsum_pos f w l : (forall j, 0 <= w j) -> 0 <= bsum f w l.
Proof. intros H. induction l as [|j l IH]; cbn [bsum]; [lia|]. specialize (H j). destruct (f j); cbn [Z.b2z]; lia. Qed.
Lemma fold_bits f w l : (forall j, 0 <= w j) -> forall r, 0 <= r -> r + bsum f w l < 2^32 -> fold_left (fun r j => if f j then u32 (r + w j) else r) l r = r + bsum f w l.
Proof.
  intros H. induction l as [|j l IH]; intros r Hr HL; cbn [fold_left bsum] in *; [lia|]. pose proof (bsum_pos f w l H). specialize (H j). destruct (f j); cbn [Z.b2z] in *.
  - rewrite u32_small by lia. rewrite IH; lia.
  - rewrite IH; lia.
Qed.
Lemma byte_bits x : bsum (Z.testbit x) (fun j => 2 ^ j) bits8 = x mod 256.
Proof.
  unfold bits8. cbn [bsum]. rewrite !Z.testbit_spec' by lia. change (2^0) with 1. change (2^1) with 2. change (2^2) with 4. change (2^3) with 8. change (2^4) with 16. change (2^5) with 32. change (2^6) with 64. change (2^7) with 128.
  Z.div_mod_to_equations. lia.
Qed.
Lemma bsum_ext f g w l : (forall j, In j l -> f j = g j) -> bsum f w l = bsum g w l.
Proof. intros H. induction l as [|j l IH]; [reflexivity|]. cbn [bsum]. rewrite IH, H; [reflexivity|left; reflexivity|]. intros k Hk. apply H. right. exact Hk. Qed.
Lemma bs_bits_ok v i : 0 <= i -> bs_bits v i = fld v (8 * i) 8.
Proof.
  intros Hi. unfold bs_bits. change [0; 1; 2; 3; 4; 5; 6; 7] with bits8.
  assert (E : bsum (fun j => Z.testbit v (j + 8 * i)) (fun j => 2 ^ j) bits8 = fld v (8 * i) 8).
  { rewrite (bsum_ext _ (Z.testbit (v / 2 ^ (8 * i)))); [apply byte_bits|]. intros j Hj. assert (0 <= j) by (unfold bits8 in Hj; cbn [In] in Hj; lia). rewrite Z.div_pow2_bits by lia. reflexivity. }
  rewrite (fold_bits (fun j => Z.testbit v (j + 8 * i)) (fun j => 2 ^ j)); [rewrite E; lia|intros; apply Z.pow_nonneg; lia|lia|rewrite E].
  pose proof (Z.mod_pos_bound (v / 2 ^ (8 * i)) (2^8) ltac:(lia)). unfold fld. change (2^32) with 4294967296. change (2^8) with 256 in *. lia.
Qed.
Lemma bsum_scale f w k l : bsum f (fun j => w j * k) l = k * bsum f w l.
Proof. induction l as [|j l IH]; cbn [bsum]; [lia|]. rewrite IH. ring. Qed.
Lemma bs_value_ok b i : 0 <= i <= 3 -> bs_value b i = (b mod 256) * 2 ^ (8 * i).
Proof.
  intros Hi. unfold bs_value. change [0; 1; 2; 3; 4; 5; 6; 7] with bits8. pose proof (Z.mod_pos_bound b 256 ltac:(lia)) as B.
  assert (E : bsum (Z.testbit b) (fun j => 2 ^ (j + i * 8)) bits8 = (b mod 256) * 2 ^ (8 * i)).
  { rewrite <- byte_bits, (Z.mul_comm (bsum _ _ _)), <- bsum_scale. unfold bits8. cbn [bsum]. rewrite !Z.pow_add_r by lia. replace (i * 8) with (8 * i) by lia. reflexivity. }
  rewrite (fold_bits (Z.testbit b) (fun j => 2 ^ (j + i * 8))); [rewrite E; lia|intros; apply Z.pow_nonneg; lia|lia|rewrite E].
  assert (i = 0 \/ i = 1 \/ i = 2 \/ i = 3) as [-> | [-> | [-> | ->]]] by lia.
  - change (2 ^ (8 * 0)) with 1. lia.
  - change (2 ^ (8 * 1)) with 256. lia.
  - change (2 ^ (8 * 2)) with 65536. lia.
  - change (2 ^ (8 * 3)) with 16777216. change (2^32) with 4294967296. lia.
Qed.
(* seekoffset sets the position; reading yields the byte there, writing sets
   exactly this byte; both go on to the next byte *)
Theorem C64_stream_seek : forall off, at_addr (bs_seek off) off.
Proof. exact seek_at. Qed.
Theorem C64_stream_read : forall m q p, at_addr q p -> fst (bs_read m q) = byte m p /\ at_addr (snd (bs_read m q)) (p + 1).
Proof.
  intros m [o s] p H. pose proof (next_at _ _ _ H) as N. destruct H as [H1 H2]. cbn [fst snd] in *. pose proof (Z.mod_pos_bound p 4 ltac:(lia)) as B. unfold byte. rewrite <- H2, <- (get_cong m _ _ H1). unfold bs_read.
  assert (s = 0 \/ s = 1 \/ s = 2 \/ s = 3) as [-> | [-> | [-> | ->]]] by lia; cbn [Z.eqb Pos.eqb fst snd] in *; (split; [apply bs_bits_ok; lia|exact N]).
Qed.
Theorem C64_stream_write : forall m q p b, at_addr q p -> 0 <= b ->
  (forall x, byte (fst (bs_write m q b)) x = if Z.eq_dec (u32 x) (u32 p) then b mod 256 else byte m x) /\ at_addr (snd (bs_write m q b)) (p + 1).
Proof.
  intros m [o s] p b H Hb. pose proof (next_at _ _ _ H) as N. destruct H as [H1 H2]. cbn [fst snd] in *. pose proof (Z.mod_pos_bound p 4 ltac:(lia)) as B. unfold bs_write. cbn [fst snd].
  set (v := if s =? 0 then b else bs_value b s). assert (V : fld v (8 * s) 8 = b mod 256 /\ 0 <= v).
  { unfold v. destruct (Z.eqb_spec s 0) as [->|S0].
    - unfold fld. change (2 ^ (8 * 0)) with 1. rewrite Z.div_1_r. split; [reflexivity|exact Hb].
    - rewrite bs_value_ok by lia. unfold fld. assert (0 < 2 ^ (8 * s)) by (apply Z.pow_pos_nonneg; lia). rewrite Z.div_mul by lia. pose proof (Z.mod_pos_bound b 256 ltac:(lia)). split; [apply Z.mod_mod; lia|nia]. }
  split.
  - intros x. pose proof (puts_field [] m (upd m o (wset (Z.shiftl 0xFF (8 * s)) (get m o) v)) p v) as P. rewrite P.
    + rewrite <- H2, (proj1 V). reflexivity.
    + intros c _. rewrite mask_fm by lia. cbn [do_modx]. rewrite <- H2, <- (get_cong m _ _ H1). unfold get, upd. rewrite H1. reflexivity.
    + apply V.
    + intros c [].
  - assert (s = 0 \/ s = 1 \/ s = 2 \/ s = 3) as Q by lia. destruct Q as [Q | [Q | [Q | Q]]]; rewrite Q in *; exact N.
Qed.

(* ---------- searching ---------- *)
Lemma string_skip m p c s : string_at m p (c :: s) -> byte m p = c /\ c <> 0 /\ string_at m (p + 1) s.
Proof.
  intros [H1 H2]. destruct (H1 0%nat ltac:(cbn; lia)) as [A B]. change (Z.of_nat 0) with 0 in A. rewrite Z.add_0_r in A. cbn [nth] in *. split; [exact A|]. split; [exact B|]. split.
  - intros i Hi. specialize (H1 (S i) ltac:(cbn [length]; lia)). cbn [nth] in H1. rewrite <- (proj1 H1). split; [f_equal; lia|rewrite (proj1 H1); apply H1].
  - rewrite <- H2. f_equal. cbn [length]. lia.
Qed.
Lemma match_ok m : forall pat fuel text r p q a, (length pat < fuel)%nat -> string_at m p pat -> string_at m a text -> at_addr r p -> at_addr q a ->
  exists b, match_loop fuel r q m = Some b /\ (b = true <-> firstn (length pat) text = pat).
Proof.
  induction pat as [|c pat IH]; intros fuel text r p q a Hf HP HT Hr Hq; (destruct fuel as [|fuel]; [lia|]); cbn [match_loop].
  - destruct (readbyte_at m r p Hr) as [R1 _]. destruct (readbyte m r) as [d r1]. cbn [fst] in R1. destruct HP as [_ HP]. cbn [length] in HP. change (Z.of_nat 0) with 0 in HP. rewrite Z.add_0_r in HP. rewrite R1, HP. exists true. split; [reflexivity|]. cbn. tauto.
  - apply string_skip in HP as (P1 & P2 & P3). destruct (readbyte_at m r p Hr) as [R1 R2]. destruct (readbyte m r) as [d r1]. cbn [fst snd] in *. rewrite R1, P1. destruct (Z.eqb_spec c 0) as [C|C]; [contradiction|].
    destruct (C64_stream_read m q a Hq) as [Q1 Q2]. destruct (bs_read m q) as [x q1]. cbn [fst snd] in *. rewrite Q1. destruct text as [|t text].
    + destruct HT as [_ HT]. cbn [length] in HT. change (Z.of_nat 0) with 0 in HT. rewrite Z.add_0_r in HT. rewrite HT. destruct (Z.eqb_spec 0 c) as [E|E]; [lia|]. exists false. split; [reflexivity|]. cbn. split; discriminate.
    + apply string_skip in HT as (T1 & T2 & T3). rewrite T1. cbn [length firstn]. destruct (Z.eqb_spec t c) as [E|E].
      * destruct (IH fuel text r1 (p + 1) q1 (a + 1) ltac:(cbn [length] in Hf; lia) P3 T3 R2 Q2) as (b & B1 & B2). exists b. split; [exact B1|]. rewrite B2. split; [congruence|]. intros K. injection K. auto.
      * exists false. split; [reflexivity|]. split; [discriminate|]. congruence.
Qed.
Lemma strnstr_ok m S0 P c pat text : string_at m P (c :: pat) -> forall rest pre fuel count q, text = pre ++ rest -> (length rest + length pat < fuel)%nat -> 0 <= count < 2^32 ->
  string_at m (S0 + len pre) rest -> at_addr q (S0 + len pre) -> (forall j, (j < length pre)%nat -> ~ occurs text (c :: pat) j) -> forall r, at_addr r (P + 1) -> forall dst, u32 (dst + 1) = u32 (len pre) ->
  exists res, strnstr_loop fuel S0 P c count dst q r m = Some res /\ search S0 (len pre + count) text (c :: pat) res.
Proof.
  intros HP. induction rest as [|t rest IH]; intros pre fuel count q Htext Hf Hc HS Hq Hno r Hr dst Hd; (destruct fuel as [|fuel]; [lia|]); cbn [strnstr_loop].
  - assert (NO : forall j, Z.of_nat j < len pre + count -> ~ occurs text (c :: pat) j).
    { intros j Hj O. destruct (Nat.lt_ge_cases j (length pre)) as [L|L]; [exact (Hno j L O)|]. unfold occurs in O. rewrite Htext, app_nil_r, skipn_all2 in O by lia. cbn in O. discriminate. }
    destruct (Z.leb_spec 1 count); [|eexists; split; [reflexivity|apply s_missing, NO]].
    destruct (C64_stream_read m q _ Hq) as [Q1 _]. destruct (bs_read m q) as [a q1]. cbn [fst] in Q1. destruct HS as [_ HS]. cbn [length] in HS. change (Z.of_nat 0) with 0 in HS. rewrite Z.add_0_r in HS. rewrite Q1, HS. cbn [Z.eqb].
    eexists. split; [reflexivity|]. apply s_missing, NO.
  - destruct (Z.leb_spec 1 count); [|eexists; split; [reflexivity|apply s_missing; intros j Hj; apply Hno; lia]].
    apply string_skip in HS as (T1 & T2 & T3). destruct (C64_stream_read m q _ Hq) as [Q1 Q2]. destruct (bs_read m q) as [a q1]. cbn [fst snd] in *. rewrite Q1, T1. destruct (Z.eqb_spec t 0) as [E|E]; [contradiction|].
    assert (L1 : len (pre ++ [t]) = len pre + 1) by (rewrite app_length; cbn [length]; lia).
    assert (NEXT : ~ occurs text (c :: pat) (length pre) -> forall r', at_addr r' (P + 1) -> exists res, strnstr_loop fuel S0 P c (u32 (count - 1)) (u32 (dst + 1)) q1 r' m = Some res /\ search S0 (len pre + count) text (c :: pat) res).
    { intros HN r' Hr'. replace (len pre + count) with (len (pre ++ [t]) + u32 (count - 1)) by (rewrite u32_small by lia; lia). apply IH; auto.
      - rewrite <- app_assoc. exact Htext.
      - cbn [length] in Hf. lia.
      - rewrite u32_small; lia.
      - rewrite L1, Z.add_assoc. exact T3.
      - rewrite L1, Z.add_assoc. exact Q2.
      - intros j Hj. rewrite app_length in Hj. cbn [length] in Hj. destruct (Nat.eq_dec j (length pre)) as [->|K]; [exact HN|apply Hno; lia].
      - rewrite u32_add_l, L1. apply u32_eq_add, Hd. }
    assert (SK : skipn (length pre) text = t :: rest) by (rewrite Htext, skipn_app, skipn_all, Nat.sub_diag; reflexivity).
    destruct (Z.eqb_spec t c) as [E2|E2]; cbn [negb]; [|apply NEXT; [unfold occurs; rewrite SK; cbn [length firstn]; congruence|exact Hr]].
    pose proof (string_skip _ _ _ _ HP) as (_ & _ & P3). destruct (match_ok m pat (S fuel) rest r (P + 1) q1 (S0 + len pre + 1) ltac:(cbn [length] in Hf; lia) P3 T3 Hr Q2) as (b & B1 & B2). rewrite B1. destruct b.
    + eexists. split; [reflexivity|]. rewrite Hd, u32_add_r. apply s_found; [lia|rewrite Htext, app_length; cbn [length]; lia| |exact Hno]. unfold occurs. rewrite SK. cbn [length firstn]. f_equal; [exact E2|apply B2; reflexivity].
    + apply NEXT; [|unfold seekoffset; rewrite u32_idem; apply seek_at]. unfold occurs. rewrite SK. cbn [length firstn]. intros K. injection K as _ K. apply B2 in K. discriminate.
Qed.
(* f_strnstr finds the first occurrence of the substring that starts among the
   first count characters of the string; -1 if there is none; the string itself
   for an empty substring *)
Theorem C64_strnstr : forall m string substring count text pat fuel, string_at m string text -> string_at m substring pat -> 0 <= count < 2^32 ->
  (length text + length pat < fuel)%nat ->
  exists r, f_strnstr fuel string substring count m = Some r /\ (pat = [] -> r = string) /\ (pat <> [] -> search string count text pat r).
Proof.
  intros m S0 P count text pat fuel HT HP Hc Hf. unfold f_strnstr. destruct (readbyte_at m _ P (seek_at P)) as [R1 R2]. destruct (readbyte m (seekoffset P)) as [b r]. cbn [fst snd] in *. rewrite R1. destruct pat as [|c pat].
  - destruct HP as [_ HP]. cbn [length] in HP. change (Z.of_nat 0) with 0 in HP. rewrite Z.add_0_r in HP. rewrite HP. eexists. split; [reflexivity|]. split; [reflexivity|congruence].
  - pose proof (string_skip _ _ _ _ HP) as (P1 & P2 & _). rewrite P1. destruct (Z.eqb_spec c 0) as [E|E]; [contradiction|].
    destruct (strnstr_ok m S0 P c pat text HP text [] fuel count (bs_seek S0) eq_refl) with (r := r) (dst := u32 (-1)) as (res & X1 & X2); auto.
    + cbn [length] in Hf. lia.
    + cbn [length]. change (Z.of_nat 0) with 0. rewrite Z.add_0_r. exact HT.
    + cbn [length]. change (Z.of_nat 0) with 0. rewrite Z.add_0_r. apply C64_stream_seek.
    + cbn [length]. intros j Hj. lia.
    + exists res. split; [exact X1|]. split; [discriminate|]. intros _. exact X2.
Qed.
(* unlike strnstr of the C library, the occurrence need not lie within the first
   count characters: searching "bc" in the first two characters of "abc" *)
Definition ex_mem : mem := fun a => if a =? 0 then 0x00636261 else if a =? 1 then 0x00006362 else 0.
Theorem C64_beyond_count_refuted : string_at ex_mem 0x58A364 [97; 98; 99] /\ string_at ex_mem 0x58A368 [98; 99] /\
  f_strnstr 9 0x58A364 0x58A368 2 ex_mem = Some (0x58A364 + 1) /\ ~ occurs (firstn 2 [97; 98; 99]) [98; 99] 1.
Proof.
  split; [|split; [|split]].
  - split; [|vm_compute; reflexivity]. intros i Hi. cbn [length] in Hi. do 3 (destruct i as [|i]; [vm_compute; split; [reflexivity|discriminate]|]). lia.
  - split; [|vm_compute; reflexivity]. intros i Hi. cbn [length] in Hi. do 2 (destruct i as [|i]; [vm_compute; split; [reflexivity|discriminate]|]). lia.
  - vm_compute. reflexivity.
  - vm_compute. discriminate.
Qed.
Example C64_example_missing : f_strnstr 9 0x58A364 0x58A368 1 ex_mem = Some 0xFFFFFFFF.
Proof. vm_compute. reflexivity. Qed.

Print Assumptions C64_stream_read.
Print Assumptions C64_stream_write.
Print Assumptions C64_strnstr.
Print Assumptions C64_beyond_count_refuted.
