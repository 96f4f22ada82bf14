(* Property C28, continued: memory functions built from byte readers and writers. *)
From Coq Require Import ZArith Lia List Bool ZifyBool ZifyNat.
From Verif Require Import Word Machine MachineProofs VarModel ReadModel PropRead BwModel PropBw BlkModel PropBlk.
Import ListNotations.
Open Scope Z_scope.

(* a reader or writer stands at address p *)
Definition at_addr (r : pos) (p : Z) : Prop := idx (fst r) = idx (p / 4 - 0x58A364 / 4) /\ snd r = p mod 4.
Lemma seek_at off : at_addr (seekoffset off) off.
Proof.
  unfold seekoffset, at_addr. cbn [fst snd]. rewrite idx_u32. apply (same_addr_iff (u32 off) off). apply u32_idem.
Qed.
Lemma idx_add a b c : idx a = idx b -> idx (a + c) = idx (b + c).
Proof. unfold idx. intros H. rewrite (Z.add_mod a), (Z.add_mod b), H by lia. reflexivity. Qed.
Lemma next_at e i p : at_addr (e, i) p -> at_addr (if i =? 3 then (u32 (e + 1), 0) else (e, i + 1)) (p + 1).
Proof.
  intros [H1 H2]. cbn [fst snd] in *. destruct (succ_split p) as [S1 S2]. pose proof (Z.mod_pos_bound p 4). unfold at_addr. rewrite S1, S2, <- H2.
  destruct (Z.eqb_spec i 3) as [->|N]; cbn [fst snd].
  - split; [|reflexivity]. rewrite idx_u32. replace (p / 4 + 1 - 0x58A364 / 4) with (p / 4 - 0x58A364 / 4 + 1) by lia. apply idx_add, H1.
  - split; [exact H1|]. symmetry. apply Z.mod_small. lia.
Qed.
Lemma mask_fm i : 0 <= i -> Z.shiftl 0xFF (8 * i) = fmask (8 * i) 8.
Proof. intros. reflexivity. Qed.
Lemma readbyte_at m r p : at_addr r p -> fst (readbyte m r) = byte m p /\ at_addr (snd (readbyte m r)) (p + 1).
Proof.
  destruct r as [e i]. intros H. pose proof H as [H1 H2]. cbn [fst snd] in *. unfold readbyte. cbn [fst snd]. split; [|apply next_at, H].
  pose proof (Z.mod_pos_bound p 4). unfold byte. rewrite <- H2, <- (get_cong m _ _ H1), mask_fm, land_fmask by lia.
  rewrite <- Z.shiftl_mul_pow2 by lia. rewrite Z.shiftr_shiftl_l by lia. rewrite Z.sub_diag. apply Z.shiftl_0_r.
Qed.
Lemma writebyte_at m q p b : at_addr q p ->
  (forall x, byte (fst (writebyte m q b)) x = if Z.eq_dec (u32 x) (u32 p) then b mod 256 else byte m x) /\ at_addr (snd (writebyte m q b)) (p + 1).
Proof.
  destruct q as [e i]. intros H. pose proof H as [H1 H2]. cbn [fst snd] in *. pose proof (Z.mod_pos_bound p 4). unfold writebyte. cbn [fst snd]. split.
  - intros x. pose proof (puts_field [] m (upd m e (wset (Z.shiftl 0xFF (8 * i)) (get m e) (u32 (Z.shiftl b (8 * i))))) p (u32 (Z.shiftl b (8 * i)))) as P.
    rewrite P.
    + rewrite <- H2. replace (8 * i) with (8 * Z.of_nat (Z.to_nat i)) by lia. rewrite fld_shl by lia. reflexivity.
    + intros c _. rewrite mask_fm by lia. cbn [do_modx]. rewrite <- H2, <- (get_cong m _ _ H1). unfold get, upd. rewrite H1. reflexivity.
    + apply u32_range.
    + intros c [].
  - replace (4 <=? i + 1) with (i =? 3) by lia. apply next_at, H.
Qed.

(* ---------- specification: copying bytes one after the other ---------- *)
Fixpoint bcopy (n : nat) (d s : Z) (f : Z -> Z) : Z -> Z :=
  match n with O => f | S n => bcopy n (d + 1) (s + 1) (fun q => if Z.eq_dec (u32 q) (u32 d) then f s else f q) end.
Lemma bcopy_ext n : forall d s f g, (forall q, f q = g q) -> forall q, bcopy n d s f q = bcopy n d s g q.
Proof.
  induction n as [|n IH]; intros d s f g H q; [apply H|]. cbn [bcopy]. apply IH. intros x. rewrite !H. reflexivity.
Qed.
Lemma bcopy_add a : forall b d s f q, bcopy (a + b) d s f q = bcopy b (d + Z.of_nat a) (s + Z.of_nat a) (bcopy a d s f) q.
Proof.
  induction a as [|a IH]; intros b d s f q; [cbn [bcopy Nat.add Z.of_nat]; rewrite !Z.add_0_r; reflexivity|]. cbn [bcopy Nat.add]. rewrite IH.
  replace (d + 1 + Z.of_nat a) with (d + Z.of_nat (S a)) by lia. replace (s + 1 + Z.of_nat a) with (s + Z.of_nat (S a)) by lia. reflexivity.
Qed.
(* no written byte is read later: an ordinary copy *)
Definition no_clobber (n : nat) (d s : Z) : Prop := forall i j, (i < j < n)%nat -> u32 (d + Z.of_nat i) <> u32 (s + Z.of_nat j).
Lemma u32_far d n : 0 < n < 2^32 -> u32 d <> u32 (d + n).
Proof. intros H Q. unfold u32 in Q. rewrite Z.add_mod in Q by lia. rewrite (Z.mod_small n) in Q by lia. pose proof (Z.mod_pos_bound d (2^32)). Z.div_mod_to_equations. lia. Qed.
Lemma bcopy_plain n : forall d s f, Z.of_nat n <= 2^32 -> no_clobber n d s ->
  (forall i, (i < n)%nat -> bcopy n d s f (d + Z.of_nat i) = f (s + Z.of_nat i)) /\
  (forall q, (forall i, (i < n)%nat -> u32 q <> u32 (d + Z.of_nat i)) -> bcopy n d s f q = f q).
Proof.
  induction n as [|n IH]; intros d s f Hn Hc; [split; [lia|reflexivity]|]. cbn [bcopy]. set (f' := fun q => if Z.eq_dec (u32 q) (u32 d) then f s else f q).
  destruct (IH (d + 1) (s + 1) f') as [I1 I2]; [lia| |].
  { intros i j H. specialize (Hc (S i) (S j) ltac:(lia)). replace (d + 1 + Z.of_nat i) with (d + Z.of_nat (S i)) by lia. replace (s + 1 + Z.of_nat j) with (s + Z.of_nat (S j)) by lia. exact Hc. }
  split.
  - intros [|i] Hi.
    + change (Z.of_nat 0) with 0. rewrite !Z.add_0_r. rewrite I2.
      * unfold f'. destruct (Z.eq_dec (u32 d) (u32 d)); congruence.
      * intros i Hi'. replace (d + 1 + Z.of_nat i) with (d + (1 + Z.of_nat i)) by lia. apply u32_far. lia.
    + replace (d + Z.of_nat (S i)) with (d + 1 + Z.of_nat i) by lia. rewrite I1 by lia. unfold f'.
      replace (s + 1 + Z.of_nat i) with (s + Z.of_nat (S i)) by lia. destruct (Z.eq_dec (u32 (s + Z.of_nat (S i))) (u32 d)) as [Q|]; [|reflexivity].
      exfalso. apply (Hc 0%nat (S i) ltac:(lia)). change (Z.of_nat 0) with 0. rewrite Z.add_0_r. congruence.
  - intros q Hq. rewrite I2.
    + unfold f'. destruct (Z.eq_dec (u32 q) (u32 d)) as [Q|]; [|reflexivity]. exfalso. apply (Hq 0%nat ltac:(lia)). change (Z.of_nat 0) with 0. rewrite Z.add_0_r. exact Q.
    + intros i Hi. specialize (Hq (S i) ltac:(lia)). replace (d + 1 + Z.of_nat i) with (d + Z.of_nat (S i)) by lia. exact Hq.
Qed.

(* ---------- f_memcpy ---------- *)
Lemma memcpy_loop_spec n : forall r q s d m, at_addr r s -> at_addr q d -> forall x, byte (memcpy_loop n r q m) x = bcopy n d s (byte m) x.
Proof.
  induction n as [|n IH]; intros r q s d m Hr Hq x; [reflexivity|]. cbn [memcpy_loop bcopy].
  destruct (readbyte_at m r s Hr) as [R1 R2]. destruct (readbyte m r) as [b r']. cbn [fst snd] in *. subst b.
  destruct (writebyte_at m q d (byte m s) Hq) as [W1 W2]. destruct (writebyte m q (byte m s)) as [m' q']. cbn [fst snd] in *.
  rewrite (IH r' q' _ _ m' R2 W2). apply bcopy_ext. intros y. rewrite W1. rewrite Z.mod_small by apply byte_range. reflexivity.
Qed.
Lemma aligned_div p : p mod 4 = 0 -> (p - 0x58A364) / 4 = p / 4 - 0x58A364 / 4.
Proof. intros. replace (p - 0x58A364) with (p + (-(0x58A364 / 4)) * 4) by (change (0x58A364 / 4) with 1452249; lia). rewrite Z.div_add by lia. lia. Qed.
Lemma one_dword m d s : d mod 4 = 0 -> s mod 4 = 0 -> forall q,
  byte (upd m (d / 4 - 0x58A364 / 4) (get m (s / 4 - 0x58A364 / 4))) q = bcopy 4 d s (byte m) q.
Proof.
  intros Hd Hs q. set (e := d / 4 - 0x58A364 / 4). destruct (bcopy_plain 4 d s (byte m)) as [B1 B2]; [lia| |].
  { intros i j H Q. assert (X : (d + Z.of_nat i) mod 4 = (s + Z.of_nat j) mod 4) by (apply (proj1 (same_addr_iff _ _) Q)). Z.div_mod_to_equations. lia. }
  pose proof (Z.mod_pos_bound q 4) as Pq.
  destruct (Z.eq_dec (idx e) (idx (q / 4 - 0x58A364 / 4))) as [Q|Q].
  - assert (SA : same_addr q (d + Z.of_nat (Z.to_nat (q mod 4)))).
    { apply same_addr_iff. rewrite Z2Nat.id by lia. replace ((d + q mod 4) / 4) with (d / 4) by (Z.div_mod_to_equations; lia). split; [symmetry; exact Q|]. Z.div_mod_to_equations. lia. }
    assert (E1 : bcopy 4 d s (byte m) q = bcopy 4 d s (byte m) (d + Z.of_nat (Z.to_nat (q mod 4)))).
    { assert (G : forall n d s f, (forall x y, same_addr x y -> f x = f y) -> forall x y, same_addr x y -> bcopy n d s f x = bcopy n d s f y).
      { clear. induction n as [|n IH]; intros d s f Hf x y H; [apply Hf, H|]. cbn [bcopy]. apply IH; [|exact H]. intros a b Hab. unfold same_addr in Hab. rewrite Hab, (Hf a b Hab). reflexivity. }
      apply G; [intros; apply byte_same; assumption|exact SA]. }
    rewrite E1, B1 by lia. unfold byte. rewrite (get_cong _ (q / 4 - 0x58A364 / 4) e) by congruence. rewrite get_upd_eq, u32_get, Z2Nat.id by lia.
    replace ((s + q mod 4) / 4) with (s / 4) by (Z.div_mod_to_equations; lia). replace ((s + q mod 4) mod 4) with (q mod 4) by (Z.div_mod_to_equations; lia). reflexivity.
  - rewrite B2; [unfold byte; rewrite get_upd_ne by exact Q; reflexivity|].
    intros i Hi SA. apply Q. symmetry. apply (proj1 (same_addr_iff _ _)) in SA as [SA _]. rewrite SA. unfold e. f_equal. f_equal. Z.div_mod_to_equations. lia.
Qed.
Lemma repmovsd_spec n : forall d s e e' m, d mod 4 = 0 -> s mod 4 = 0 -> idx e = idx (d / 4 - 0x58A364 / 4) -> idx e' = idx (s / 4 - 0x58A364 / 4) ->
  forall q, byte (repmovsd n e e' m) q = bcopy (4 * n) d s (byte m) q.
Proof.
  induction n as [|n IH]; intros d s e e' m Hd Hs He He' q; [reflexivity|]. replace (4 * S n)%nat with (4 + 4 * n)%nat by lia. rewrite bcopy_add. change (Z.of_nat 4) with 4. cbn [repmovsd].
  rewrite (IH (d + 4) (s + 4)).
  - apply bcopy_ext. intros x. rewrite <- (one_dword m d s Hd Hs x). rewrite (get_cong m e' _ He'). unfold byte, get, upd. rewrite He. reflexivity.
  - rewrite <- Hd. replace (d + 4) with (d + 1 * 4) by lia. apply Z.mod_add. lia.
  - rewrite <- Hs. replace (s + 4) with (s + 1 * 4) by lia. apply Z.mod_add. lia.
  - rewrite idx_u32. replace ((d + 4) / 4) with (d / 4 + 1) by (replace (d + 4) with (d + 1 * 4) by lia; rewrite Z.div_add by lia; reflexivity).
    replace (d / 4 + 1 - 0x58A364 / 4) with (d / 4 - 0x58A364 / 4 + 1) by lia. apply idx_add, He.
  - rewrite idx_u32. replace ((s + 4) / 4) with (s / 4 + 1) by (replace (s + 4) with (s + 1 * 4) by lia; rewrite Z.div_add by lia; reflexivity).
    replace (s / 4 + 1 - 0x58A364 / 4) with (s / 4 - 0x58A364 / 4 + 1) by lia. apply idx_add, He'.
Qed.
(* f_memcpy is an ascending byte copy whichever way it is compiled *)
Theorem C28_memcpy : forall dst src n m, 0 <= pval n < 2^32 ->
  forall q, byte (f_memcpy dst src n m) q = bcopy (Z.to_nat (pval n)) (pval dst) (pval src) (byte m) q.
Proof.
  intros dst src n m Hn q.
  assert (V : byte (memcpy_var (pval dst) (pval src) (pval n) m) q = bcopy (Z.to_nat (pval n)) (pval dst) (pval src) (byte m) q).
  { unfold memcpy_var. rewrite (u32_small (pval n)) by exact Hn. apply memcpy_loop_spec; apply seek_at. }
  destruct dst as [d|d], src as [s|s], n as [n|n]; try exact V. cbn [pval] in *. unfold f_memcpy.
  destruct ((d mod 4 =? 0) && (s mod 4 =? 0) && (n mod 4 =? 0)) eqn:AL; [|exact V].
  apply andb_true_iff in AL as [AL A3]. apply andb_true_iff in AL as [A1 A2].
  assert (0 <= n / 4 < 2^32) by (Z.div_mod_to_equations; lia). rewrite (u32_small (n / 4)) by assumption.
  rewrite (repmovsd_spec _ d s); try lia.
  - f_equal. Z.div_mod_to_equations. lia.
  - rewrite idx_u32, aligned_div by lia. reflexivity.
  - rewrite idx_u32, aligned_div by lia. reflexivity.
Qed.
(* so it behaves like C's memcpy (and memmove when dst is below src) *)
Theorem C28_memcpy_plain : forall dst src n m, 0 <= pval n < 2^32 -> no_clobber (Z.to_nat (pval n)) (pval dst) (pval src) ->
  (forall i, 0 <= i < pval n -> byte (f_memcpy dst src n m) (pval dst + i) = byte m (pval src + i)) /\
  (forall q, (forall i, 0 <= i < pval n -> u32 q <> u32 (pval dst + i)) -> byte (f_memcpy dst src n m) q = byte m q).
Proof.
  intros dst src n m Hn Hc. destruct (bcopy_plain (Z.to_nat (pval n)) (pval dst) (pval src) (byte m)) as [B1 B2]; [lia|exact Hc|].
  split; intros; rewrite C28_memcpy by exact Hn.
  - replace i with (Z.of_nat (Z.to_nat i)) by lia. apply B1. lia.
  - apply B2. intros i Hi. apply H. lia.
Qed.

(* ---------- f_memcmp ---------- *)
Lemma memcmp_loop_spec n : forall r1 r2 p1 p2 m, at_addr r1 p1 -> at_addr r2 p2 ->
  (exists k, (k < n)%nat /\ (forall i, (i < k)%nat -> byte m (p1 + Z.of_nat i) = byte m (p2 + Z.of_nat i)) /\
     byte m (p1 + Z.of_nat k) <> byte m (p2 + Z.of_nat k) /\ memcmp_loop n r1 r2 m = u32 (byte m (p1 + Z.of_nat k) - byte m (p2 + Z.of_nat k))) \/
  (forall i, (i < n)%nat -> byte m (p1 + Z.of_nat i) = byte m (p2 + Z.of_nat i)) /\ memcmp_loop n r1 r2 m = 0.
Proof.
  induction n as [|n IH]; intros r1 r2 p1 p2 m H1 H2; [right; split; [lia|reflexivity]|]. cbn [memcmp_loop].
  destruct (readbyte_at m r1 p1 H1) as [A1 A2]. destruct (readbyte m r1) as [c1 r1']. cbn [fst snd] in *. subst c1.
  destruct (readbyte_at m r2 p2 H2) as [A3 A4]. destruct (readbyte m r2) as [c2 r2']. cbn [fst snd] in *. subst c2.
  destruct (Z.eqb_spec (byte m p1) (byte m p2)) as [Q|Q].
  - destruct (IH r1' r2' (p1 + 1) (p2 + 1) m A2 A4) as [(k & K1 & K2 & K3 & K4)|[K1 K2]].
    + left. exists (S k). split; [lia|]. split; [|split].
      * intros [|i] Hi; [change (Z.of_nat 0) with 0; rewrite !Z.add_0_r; exact Q|]. specialize (K2 i ltac:(lia)).
        replace (p1 + Z.of_nat (S i)) with (p1 + 1 + Z.of_nat i) by lia. replace (p2 + Z.of_nat (S i)) with (p2 + 1 + Z.of_nat i) by lia. exact K2.
      * replace (p1 + Z.of_nat (S k)) with (p1 + 1 + Z.of_nat k) by lia. replace (p2 + Z.of_nat (S k)) with (p2 + 1 + Z.of_nat k) by lia. exact K3.
      * replace (p1 + Z.of_nat (S k)) with (p1 + 1 + Z.of_nat k) by lia. replace (p2 + Z.of_nat (S k)) with (p2 + 1 + Z.of_nat k) by lia. exact K4.
    + right. split; [|exact K2]. intros [|i] Hi; [change (Z.of_nat 0) with 0; rewrite !Z.add_0_r; exact Q|]. specialize (K1 i ltac:(lia)).
      replace (p1 + Z.of_nat (S i)) with (p1 + 1 + Z.of_nat i) by lia. replace (p2 + Z.of_nat (S i)) with (p2 + 1 + Z.of_nat i) by lia. exact K1.
  - left. exists 0%nat. change (Z.of_nat 0) with 0. rewrite !Z.add_0_r. split; [lia|]. split; [lia|]. split; [exact Q|reflexivity].
Qed.
(* zero iff the first n bytes agree; otherwise the sign is that of the first difference *)
Theorem C28_memcmp : forall b1 b2 n m, 0 <= n < 2^32 ->
  let r := f_memcmp b1 b2 n m in
  (r = 0 <-> forall i, 0 <= i < n -> byte m (b1 + i) = byte m (b2 + i)) /\
  forall k, 0 <= k < n -> (forall i, 0 <= i < k -> byte m (b1 + i) = byte m (b2 + i)) -> byte m (b1 + k) <> byte m (b2 + k) ->
    r = u32 (byte m (b1 + k) - byte m (b2 + k)) /\ (2^31 <= r <-> byte m (b1 + k) < byte m (b2 + k)).
Proof.
  intros b1 b2 n m Hn r. subst r. unfold f_memcmp. rewrite (u32_small n) by exact Hn.
  assert (NZ : forall x y, 0 <= x < 256 -> 0 <= y < 256 -> x <> y -> u32 (x - y) <> 0 /\ (2^31 <= u32 (x - y) <-> x < y)) by (intros x y H1 H2 H3; unfold u32; Z.div_mod_to_equations; lia).
  destruct (memcmp_loop_spec (Z.to_nat n) _ _ b1 b2 m (seek_at b1) (seek_at b2)) as [(k & K1 & K2 & K3 & K4)|[K1 K2]].
  - rewrite K4. destruct (NZ _ _ (byte_range m (b1 + Z.of_nat k)) (byte_range m (b2 + Z.of_nat k)) K3) as [N1 N2]. split.
    + split; [intros Q; contradiction|]. intros H. exfalso. apply K3, H. lia.
    + intros k' Hk' He Hd. assert (k' = Z.of_nat k) as ->; [|split; [reflexivity|exact N2]].
      destruct (Z.lt_trichotomy k' (Z.of_nat k)) as [L|[L|L]]; [|exact L|].
      * exfalso. apply Hd. specialize (K2 (Z.to_nat k') ltac:(lia)). rewrite Z2Nat.id in K2 by lia. exact K2.
      * exfalso. apply K3, He. lia.
  - rewrite K2. split.
    + split; [|reflexivity]. intros _ i Hi. specialize (K1 (Z.to_nat i) ltac:(lia)). rewrite Z2Nat.id in K1 by lia. exact K1.
    + intros k Hk _ Hd. exfalso. apply Hd. specialize (K1 (Z.to_nat k) ltac:(lia)). rewrite Z2Nat.id in K1 by lia. exact K1.
Qed.

(* ---------- f_strcpy, f_strcmp ---------- *)
Lemma strcpy_loop_spec k : forall fuel r q s d m, (k < fuel)%nat -> at_addr r s -> at_addr q d -> no_clobber (S k) d s ->
  (forall i, (i < k)%nat -> byte m (s + Z.of_nat i) <> 0) -> byte m (s + Z.of_nat k) = 0 ->
  exists m', strcpy_loop fuel r q m = Some m' /\ forall x, byte m' x = bcopy (S k) d s (byte m) x.
Proof.
  induction k as [|k IH]; intros fuel r q s d m Hf Hr Hq Hc Hn Hz; (destruct fuel as [|fuel]; [lia|]); cbn [strcpy_loop].
  - change (Z.of_nat 0) with 0 in Hz. rewrite Z.add_0_r in Hz.
    destruct (readbyte_at m r s Hr) as [R1 R2]. destruct (readbyte m r) as [b r']. cbn [fst snd] in *. subst b. rewrite Hz.
    destruct (writebyte_at m q d 0 Hq) as [W1 W2]. destruct (writebyte m q 0) as [m' q']. cbn [fst snd] in *. cbn [Z.eqb].
    exists m'. split; [reflexivity|]. intros x. cbn [bcopy]. rewrite W1, Hz. reflexivity.
  - pose proof (Hn 0%nat ltac:(lia)) as N0. change (Z.of_nat 0) with 0 in N0. rewrite Z.add_0_r in N0.
    destruct (readbyte_at m r s Hr) as [R1 R2]. destruct (readbyte m r) as [b r']. cbn [fst snd] in *. subst b.
    destruct (writebyte_at m q d (byte m s) Hq) as [W1 W2]. destruct (writebyte m q (byte m s)) as [m1 q']. cbn [fst snd] in *.
    replace (byte m s =? 0) with false by lia.
    assert (SAME : forall i, (i <= k)%nat -> byte m1 (s + 1 + Z.of_nat i) = byte m (s + Z.of_nat (S i))).
    { intros i Hi. replace (s + 1 + Z.of_nat i) with (s + Z.of_nat (S i)) by lia. rewrite W1. destruct (Z.eq_dec _ _) as [Q|]; [|reflexivity].
      exfalso. apply (Hc 0%nat (S i) ltac:(lia)). change (Z.of_nat 0) with 0. rewrite Z.add_0_r. congruence. }
    destruct (IH fuel r' q' (s + 1) (d + 1) m1) as (m' & E & B); auto; try lia.
    + intros i j H. specialize (Hc (S i) (S j) ltac:(lia)). replace (d + 1 + Z.of_nat i) with (d + Z.of_nat (S i)) by lia. replace (s + 1 + Z.of_nat j) with (s + Z.of_nat (S j)) by lia. exact Hc.
    + intros i Hi. rewrite SAME by lia. apply Hn. lia.
    + rewrite SAME by lia. exact Hz.
    + exists m'. split; [exact E|]. intros x. rewrite B. change (bcopy (S (S k)) d s (byte m) x) with (bcopy (S k) (d + 1) (s + 1) (fun q => if Z.eq_dec (u32 q) (u32 d) then byte m s else byte m q) x).
      apply (bcopy_ext (S k)). intros y. rewrite W1, Z.mod_small by apply byte_range. reflexivity.
Qed.
(* f_strcpy copies the string with its NUL and returns dst *)
Theorem C28_strcpy : forall fuel dst src k m, 0 <= k < 2^32 - 1 -> (Z.to_nat k < fuel)%nat ->
  (forall i, 0 <= i < k -> byte m (src + i) <> 0) -> byte m (src + k) = 0 -> no_clobber (S (Z.to_nat k)) dst src ->
  exists m', f_strcpy fuel dst src m = Some (m', dst) /\ (forall i, 0 <= i <= k -> byte m' (dst + i) = byte m (src + i)) /\
    forall q, (forall i, 0 <= i <= k -> u32 q <> u32 (dst + i)) -> byte m' q = byte m q.
Proof.
  intros fuel dst src k m Hk Hf Hn Hz Hc. unfold f_strcpy.
  destruct (strcpy_loop_spec (Z.to_nat k) fuel _ _ src dst m Hf (seek_at src) (seek_at dst) Hc) as (m' & E & B).
  - intros i Hi. apply Hn. lia.
  - rewrite Z2Nat.id by lia. exact Hz.
  - exists m'. rewrite E. split; [reflexivity|]. destruct (bcopy_plain (S (Z.to_nat k)) dst src (byte m)) as [B1 B2]; [lia|exact Hc|]. split.
    + intros i Hi. rewrite B. replace i with (Z.of_nat (Z.to_nat i)) by lia. apply B1. lia.
    + intros q Hq. rewrite B. apply B2. intros i Hi. apply Hq. lia.
Qed.
Lemma strcmp_loop_spec k : forall fuel r1 r2 p1 p2 m, (k < fuel)%nat -> at_addr r1 p1 -> at_addr r2 p2 ->
  (forall i, (i < k)%nat -> byte m (p1 + Z.of_nat i) = byte m (p2 + Z.of_nat i) /\ byte m (p1 + Z.of_nat i) <> 0) ->
  (byte m (p1 + Z.of_nat k) <> byte m (p2 + Z.of_nat k) \/ byte m (p1 + Z.of_nat k) = 0) ->
  strcmp_loop fuel r1 r2 m = Some (u32 (byte m (p1 + Z.of_nat k) - byte m (p2 + Z.of_nat k))).
Proof.
  induction k as [|k IH]; intros fuel r1 r2 p1 p2 m Hf H1 H2 He Hd; (destruct fuel as [|fuel]; [lia|]); cbn [strcmp_loop];
    destruct (readbyte_at m r1 p1 H1) as [A1 A2]; destruct (readbyte m r1) as [c1 r1']; cbn [fst snd] in *; subst c1;
    destruct (readbyte_at m r2 p2 H2) as [A3 A4]; destruct (readbyte m r2) as [c2 r2']; cbn [fst snd] in *; subst c2.
  - change (Z.of_nat 0) with 0 in *. rewrite !Z.add_0_r in *. destruct (Z.eqb_spec (byte m p1) (byte m p2)) as [Q|Q]; [|reflexivity].
    destruct Hd as [Hd|Hd]; [contradiction|]. replace (byte m p1 =? 0) with true by lia. rewrite Q, Z.sub_diag. reflexivity.
  - destruct (He 0%nat ltac:(lia)) as [E1 E2]. change (Z.of_nat 0) with 0 in *. rewrite !Z.add_0_r in *. rewrite E1, Z.eqb_refl, <- E1. replace (byte m p1 =? 0) with false by lia.
    replace (p1 + Z.of_nat (S k)) with (p1 + 1 + Z.of_nat k) in * by lia. replace (p2 + Z.of_nat (S k)) with (p2 + 1 + Z.of_nat k) in * by lia.
    apply IH; auto; [lia|]. intros i Hi. specialize (He (S i) ltac:(lia)). replace (p1 + Z.of_nat (S i)) with (p1 + 1 + Z.of_nat i) in He by lia. replace (p2 + Z.of_nat (S i)) with (p2 + 1 + Z.of_nat i) in He by lia. exact He.
Qed.
(* at the first position where the strings differ or both end *)
Theorem C28_strcmp : forall fuel s1 s2 k m, 0 <= k -> (Z.to_nat k < fuel)%nat ->
  (forall i, 0 <= i < k -> byte m (s1 + i) = byte m (s2 + i) /\ byte m (s1 + i) <> 0) ->
  (byte m (s1 + k) <> byte m (s2 + k) \/ byte m (s1 + k) = 0) ->
  exists r, f_strcmp fuel s1 s2 m = Some r /\ r = u32 (byte m (s1 + k) - byte m (s2 + k)) /\
    (r = 0 <-> byte m (s1 + k) = byte m (s2 + k)) /\ (2^31 <= r <-> byte m (s1 + k) < byte m (s2 + k)).
Proof.
  intros fuel s1 s2 k m Hk Hf He Hd. exists (u32 (byte m (s1 + k) - byte m (s2 + k))). split; [|split; [reflexivity|]].
  - unfold f_strcmp. rewrite (strcmp_loop_spec (Z.to_nat k) fuel _ _ s1 s2 m Hf (seek_at s1) (seek_at s2)); rewrite ?Z2Nat.id by lia; auto.
    intros i Hi. apply He. lia.
  - pose proof (byte_range m (s1 + k)). pose proof (byte_range m (s2 + k)). unfold u32. split; Z.div_mod_to_equations; lia.
Qed.

(* ---------- f_dwread, f_dwwrite ---------- *)
Lemma addbits v sh : 0 <= v -> forall n a dw, 0 <= a -> 0 <= a + sh -> 0 <= dw < 2^32 ->
  fold_left (addbit v sh) (map (fun i => a + Z.of_nat i) (seq 0 n)) dw = u32 (dw + bsum v sh a n).
Proof.
  intros Hv. induction n as [|n IH]; intros a dw Ha Hs Hd; [cbn; rewrite Z.add_0_r, u32_small by exact Hd; reflexivity|].
  cbn [seq map fold_left]. rewrite <- seq_shift, map_map.
  rewrite (map_ext (fun x => a + Z.of_nat (S x)) (fun i => a + 1 + Z.of_nat i)) by (intros; lia).
  change (Z.of_nat 0) with 0. rewrite Z.add_0_r.
  assert (A : addbit v sh dw a = u32 (dw + bitv v a * signed_shift 1 (a + sh))).
  { unfold addbit, bitv, signed_shift. replace (0 <=? a + sh) with true by lia. rewrite Z.shiftl_1_l. destruct (Z.testbit v a); [rewrite Z.mul_1_l; reflexivity|rewrite Z.mul_0_l, Z.add_0_r, u32_small by exact Hd; reflexivity]. }
  rewrite A, IH by (try apply u32_range; lia). rewrite u32_add_l, bsum_front. f_equal. lia.
Qed.
Lemma addbits_range v sh a b dw : 0 <= v -> 0 <= a <= b -> 0 <= a + sh -> 0 <= dw < 2^32 ->
  fold_left (addbit v sh) (zrange a b) dw = u32 (dw + (signed_shift (v mod 2^b) sh - signed_shift (v mod 2^a) sh)).
Proof.
  intros Hv Hab Hs Hd. unfold zrange. rewrite addbits by lia. rewrite bsum_ss by lia. rewrite Z2Nat.id by lia. replace (a + (b - a)) with b by lia. reflexivity.
Qed.
(* four bytes from p, little endian *)
Definition le4 (m : mem) (p : Z) : Z := byte m p + 2^8 * byte m (p + 1) + 2^16 * byte m (p + 2) + 2^24 * byte m (p + 3).
Lemma aligned4 m p : p mod 4 = 0 -> get m (p / 4 - 0x58A364 / 4) = le4 m p.
Proof.
  intros H. unfold le4, byte.
  assert (forall j, 0 <= j < 4 -> (p + j) / 4 = p / 4 /\ (p + j) mod 4 = j) as Q by (intros; Z.div_mod_to_equations; lia).
  destruct (Q 1 ltac:(lia)) as [-> ->]. destruct (Q 2 ltac:(lia)) as [-> ->]. destruct (Q 3 ltac:(lia)) as [-> ->]. rewrite H.
  pose proof (get_range m (p / 4 - 0x58A364 / 4)) as G. set (v := get m _) in *. unfold fld. change (2^(8*0)) with 1. change (2^(8*1)) with 256. change (2^(8*2)) with 65536. change (2^(8*3)) with 16777216. change (2^8) with 256. change (2^16) with 65536. change (2^24) with 16777216.
  clearbody v. clear - G. Z.div_mod_to_equations. lia.
Qed.
Lemma off_idx ptr : idx (u32 (ptr - 0x58A364) / 4) = idx (ptr / 4 - 0x58A364 / 4) /\ u32 (ptr - 0x58A364) mod 4 = ptr mod 4.
Proof.
  assert (M : (ptr - 0x58A364) mod 4 = ptr mod 4) by (change 0x58A364 with (1452249 * 4); rewrite Zminus_mod, Z.mod_mul, Z.sub_0_r, Z.mod_mod by lia; reflexivity).
  assert (D : (ptr - 0x58A364) / 4 = ptr / 4 - 0x58A364 / 4).
  { replace (ptr - 0x58A364) with (ptr + (-(0x58A364 / 4)) * 4) by (change (0x58A364 / 4) with 1452249; lia). rewrite Z.div_add by lia. lia. }
  rewrite <- D, <- M. set (x := ptr - 0x58A364). unfold u32, idx. change (2^32) with (4 * 2^30). rewrite Z.rem_mul_r by lia.
  split; [|rewrite Z.mul_comm, Z.mod_add by lia; apply Z.mod_mod; lia].
  rewrite Z.mul_comm, Z.div_add, (Z.div_small (x mod 4)) by (try apply Z.mod_pos_bound; lia). rewrite Z.add_0_l. apply Z.mod_mod. lia.
Qed.
Theorem C28_dwread : forall ptr m, f_dwread ptr m = le4 m (pval ptr).
Proof.
  assert (V : forall p m, dwread_var p m = le4 m p).
  { intros p m. unfold dwread_var. destruct (off_idx p) as [O1 O2]. set (e := u32 (p - 0x58A364) / 4) in *. rewrite O2. rewrite (get_cong m _ _ O1).
    assert (O1' : idx (u32 (e + 1)) = idx (p / 4 - 0x58A364 / 4 + 1)) by (rewrite idx_u32; apply idx_add, O1). rewrite (get_cong m _ _ O1').
    destruct (Z.eqb_spec (p mod 4) 0) as [Z0|N0]; [apply aligned4, Z0|].
    pose proof (Z.mod_pos_bound p 4) as Pm. set (i := p mod 4) in *. assert (Hi : 1 <= i <= 3) by lia. set (e0 := p / 4 - 0x58A364 / 4).
    pose proof (get_range m e0) as G0. pose proof (get_range m (e0 + 1)) as G1.
    rewrite (addbits_range (get m e0)) by lia. rewrite (addbits_range (get m (e0 + 1))) by (try apply u32_range; lia).
    rewrite Z.add_0_l, u32_add_l. rewrite (Z.mod_small (get m e0)) by exact G0.
    assert (S0 : forall sh, signed_shift 0 sh = 0) by (intros sh; unfold signed_shift; destruct (0 <=? sh); [apply Z.shiftl_0_l|apply Z.shiftr_0_l]).
    change (2^0) with 1. rewrite Z.mod_1_r, S0. unfold signed_shift. replace (0 <=? - (8 * i)) with false by lia. replace (0 <=? 32 - 8 * i) with true by lia.
    rewrite !Z.opp_involutive. rewrite !Z.shiftr_div_pow2, Z.shiftl_mul_pow2 by lia. rewrite (Z.div_small (get m e0 mod _)) by (apply Z.mod_pos_bound, Z.pow_pos_nonneg; lia).
    rewrite !Z.sub_0_r.
    assert (BY : forall j, 0 <= j <= 3 -> byte m (p + j) = if i + j <? 4 then fld (get m e0) (8 * (i + j)) 8 else fld (get m (e0 + 1)) (8 * (i + j - 4)) 8).
    { intros j Hj. unfold byte. destruct (Z.ltb_spec (i + j) 4) as [L|L].
      - replace ((p + j) / 4) with (p / 4) by (unfold i in *; Z.div_mod_to_equations; lia). replace ((p + j) mod 4) with (i + j) by (unfold i in *; Z.div_mod_to_equations; lia). reflexivity.
      - replace ((p + j) / 4 - 0x58A364 / 4) with (e0 + 1) by (unfold e0, i in *; Z.div_mod_to_equations; lia). replace ((p + j) mod 4) with (i + j - 4) by (unfold i in *; Z.div_mod_to_equations; lia). reflexivity. }
    unfold le4. rewrite <- (Z.add_0_r p) at 1. rewrite !BY by lia. clear BY O1 O1' O2. clearbody e0 i. set (a := get m e0) in *. set (b := get m (e0 + 1)) in *. clearbody a b.
    unfold fld. change (2^8) with 256. change (2^16) with 65536. change (2^24) with 16777216. clear - Hi G0 G1.
    assert (i = 1 \/ i = 2 \/ i = 3) as [ -> |[ -> | -> ]] by lia.
    + change (u32 (a / 256 + (b mod 256) * 16777216) = (a / 256) mod 256 + 256 * ((a / 65536) mod 256) + 65536 * ((a / 16777216) mod 256) + 16777216 * ((b / 1) mod 256)).
      rewrite Z.div_1_r, u32_small by (Z.div_mod_to_equations; lia). Z.div_mod_to_equations; lia.
    + change (u32 (a / 65536 + (b mod 65536) * 65536) = (a / 65536) mod 256 + 256 * ((a / 16777216) mod 256) + 65536 * ((b / 1) mod 256) + 16777216 * ((b / 256) mod 256)).
      rewrite Z.div_1_r, u32_small by (Z.div_mod_to_equations; lia). Z.div_mod_to_equations; lia.
    + change (u32 (a / 16777216 + (b mod 16777216) * 256) = (a / 16777216) mod 256 + 256 * ((b / 1) mod 256) + 65536 * ((b / 256) mod 256) + 16777216 * ((b / 65536) mod 256)).
      rewrite Z.div_1_r, u32_small by (Z.div_mod_to_equations; lia). Z.div_mod_to_equations; lia. }
  intros [p|v] m; cbn [f_dwread pval]; [|apply V]. destruct (Z.eqb_spec (p mod 4) 0) as [Q|Q]; [|apply V]. rewrite aligned_div by exact Q. apply aligned4, Q.
Qed.
Lemma dwbreak_fld dw k : 0 <= dw < 2^32 -> 0 <= k <= 3 -> dwbreak_byte dw k = fld dw (8 * k) 8.
Proof.
  intros Hd Hk. unfold dwbreak_byte. destruct (Z.eqb_spec k 0) as [->|N].
  - unfold wset. rewrite !Z.ldiff_0_l, !Z.lor_0_l. rewrite <- Z.land_assoc. change (Z.land 0xFFFF 0xFF) with (Z.ones 8). rewrite Z.land_ones by lia. unfold fld. change (2^(8*0)) with 1. rewrite Z.div_1_r. reflexivity.
  - rewrite addbits_range by lia. rewrite Z.add_0_l. unfold signed_shift. replace (0 <=? - (8 * k)) with false by lia. rewrite Z.opp_involutive, !Z.shiftr_div_pow2 by lia.
    rewrite (Z.div_small (dw mod 2^(8 * k))) by (apply Z.mod_pos_bound, Z.pow_pos_nonneg; lia). rewrite Z.sub_0_r.
    assert (Q : dw mod 2^(8 * k + 8) / 2^(8 * k) = fld dw (8 * k) 8).
    { unfold fld. rewrite Z.pow_add_r by lia. rewrite Z.rem_mul_r by (try apply Z.pow_nonzero; lia). rewrite (Z.mul_comm (2^(8 * k))), Z.div_add by (apply Z.pow_nonzero; lia).
      rewrite Z.div_small by (apply Z.mod_pos_bound, Z.pow_pos_nonneg; lia). lia. }
    rewrite Q. pose proof (fld_range dw (8 * k) 8). apply u32_small. lia.
Qed.
(* f_dwwrite stores the four bytes of the dword at any address and changes no
   other byte *)
Theorem C28_dwwrite : forall ptr dw m q,
  (forall j, 0 <= j < 4 -> u32 q = u32 (pval ptr + j) -> byte (f_dwwrite ptr dw m) q = fld (u32 dw) (8 * j) 8) /\
  ((forall j, 0 <= j < 4 -> u32 q <> u32 (pval ptr + j)) -> byte (f_dwwrite ptr dw m) q = byte m q).
Proof.
  assert (V : forall p dw m q, 0 <= dw < 2^32 ->
    (forall j, 0 <= j < 4 -> u32 q = u32 (p + j) -> byte (dwwrite_bytes p dw m) q = fld dw (8 * j) 8) /\
    ((forall j, 0 <= j < 4 -> u32 q <> u32 (p + j)) -> byte (dwwrite_bytes p dw m) q = byte m q)).
  { intros p dw m q Hdw. unfold dwwrite_bytes. pose proof (seek_at p) as A0. set (q0 := seekoffset p) in *. rewrite !dwbreak_fld by lia.
    destruct (writebyte_at m q0 p (fld dw (8 * 0) 8) A0) as [B1 A1]. destruct (writebyte m q0 _) as [m1 q1]. cbn [fst snd] in *.
    destruct (writebyte_at m1 q1 (p + 1) (fld dw (8 * 1) 8) A1) as [B2 A2]. destruct (writebyte m1 q1 _) as [m2 q2]. cbn [fst snd] in *.
    destruct (writebyte_at m2 q2 (p + 1 + 1) (fld dw (8 * 2) 8) A2) as [B3 A3]. destruct (writebyte m2 q2 _) as [m3 q3]. cbn [fst snd] in *.
    destruct (writebyte_at m3 q3 (p + 1 + 1 + 1) (fld dw (8 * 3) 8) A3) as [B4 _].
    replace (p + 1 + 1 + 1) with (p + 3) in * by lia. replace (p + 1 + 1) with (p + 2) in * by lia.
    assert (FM : forall k, fld dw k 8 mod 256 = fld dw k 8) by (intros; apply (Z.mod_small _ (2^8)), fld_range; lia). rewrite !FM in *.
    assert (NE : forall i j, 0 <= i < 4 -> 0 <= j < 4 -> i <> j -> u32 (p + i) <> u32 (p + j)).
    { intros i j Hi Hj Hn. destruct (Z.lt_trichotomy i j) as [L|[L|L]]; [|lia|].
      - replace (p + j) with (p + i + (j - i)) by lia. apply u32_far. lia.
      - apply not_eq_sym. replace (p + i) with (p + j + (i - j)) by lia. apply u32_far. lia. }
    rewrite B4, B3, B2, B1. split.
    - intros j Hj ->. assert (P0 : u32 p = u32 (p + 0)) by (rewrite Z.add_0_r; reflexivity). rewrite P0. clear P0. assert (j = 0 \/ j = 1 \/ j = 2 \/ j = 3) as [ -> |[ -> |[ -> | -> ]]] by lia;
        repeat match goal with |- context [Z.eq_dec ?x ?y] => destruct (Z.eq_dec x y) as [?Q|?Q] end; try reflexivity; try congruence;
        exfalso; match goal with Q : u32 (p + ?i) = u32 (p + ?j) |- _ => revert Q; apply NE; lia end.
    - intros H. pose proof (H 0 ltac:(lia)) as H0. rewrite Z.add_0_r in H0. pose proof (H 1 ltac:(lia)). pose proof (H 2 ltac:(lia)). pose proof (H 3 ltac:(lia)).
      repeat match goal with |- context [Z.eq_dec ?x ?y] => destruct (Z.eq_dec x y) end; try contradiction; reflexivity. }
  intros [p|v] dw m q; cbn [f_dwwrite pval]; [|apply V, u32_range]. destruct (Z.eqb_spec (p mod 4) 0) as [Q|Q]; [|apply V, u32_range].
  rewrite aligned_div by exact Q. set (e := p / 4 - 0x58A364 / 4).
  assert (PJ : forall j, 0 <= j < 4 -> (p + j) / 4 = p / 4 /\ (p + j) mod 4 = j) by (intros; Z.div_mod_to_equations; lia). split.
  - intros j Hj S1. apply (proj1 (same_addr_iff _ _)) in S1 as [S1 S2]. destruct (PJ j Hj) as [P1 P2]. rewrite P1 in S1. rewrite P2 in S2. fold e in S1. unfold byte.
    rewrite (get_cong _ (q / 4 - 0x58A364 / 4) e S1), get_upd_eq, u32_idem, S2. reflexivity.
  - intros H. unfold byte. rewrite get_upd_ne; [reflexivity|]. intros S1. pose proof (Z.mod_pos_bound q 4). apply (H (q mod 4)); [lia|].
    apply same_addr_iff. destruct (PJ (q mod 4) ltac:(lia)) as [P1 P2]. rewrite P1, P2. split; [symmetry; exact S1|reflexivity].
Qed.

(* ---------- CPByteWriter ---------- *)
Lemma fold_map {A B C} (f : A -> C -> A) (g : B -> C) l : forall a, fold_left f (map g l) a = fold_left (fun a x => f a (g x)) l a.
Proof. induction l as [|x l IH]; intros a; [reflexivity|cbn; apply IH]. Qed.
Lemma fold_same {A B} (f g : A -> B -> A) l : (forall a x, In x l -> f a x = g a x) -> forall a, fold_left f l a = fold_left g l a.
Proof. induction l as [|x l IH]; intros H a; [reflexivity|]. cbn. rewrite H by (left; reflexivity). apply IH. intros; apply H; right; assumption. Qed.
Lemma pack_block (b : nat -> Z) i d : 1 <= i <= 3 -> 0 <= b (Z.to_nat i) < 256 -> 0 <= d < 2^32 ->
  fold_left (fun d k => if Z.testbit (b (Z.to_nat (k / 8))) (k mod 8) then u32 (d + 2 ^ k) else d) (map (fun k => 8 * i + k) (zrange 0 8)) d = u32 (d + b (Z.to_nat i) * 2^(8 * i)).
Proof.
  intros Hi Hb Hd. rewrite fold_map. rewrite (fold_same _ (addbit (b (Z.to_nat i)) (8 * i))).
  - rewrite addbits_range by lia. unfold signed_shift. replace (0 <=? 8 * i) with true by lia. rewrite !Z.shiftl_mul_pow2 by lia.
    change (2^0) with 1. rewrite Z.mod_1_r. rewrite (Z.mod_small (b _)) by (change (2^8) with 256; lia). f_equal. lia.
  - intros a x Hx. unfold zrange in Hx. apply in_map_iff in Hx as (k & <- & Hk). apply in_seq in Hk. change (Z.to_nat (8 - 0)) with 8%nat in Hk.
    unfold addbit. replace ((8 * i + (0 + Z.of_nat k)) / 8) with i by (Z.div_mod_to_equations; lia). replace ((8 * i + (0 + Z.of_nat k)) mod 8) with (0 + Z.of_nat k) by (Z.div_mod_to_equations; lia).
    replace (8 * i + (0 + Z.of_nat k)) with (0 + Z.of_nat k + 8 * i) by lia. reflexivity.
Qed.
Lemma pack4 (b : nat -> Z) : (forall j, (j < 4)%nat -> 0 <= b j < 256) ->
  fold_left (fun d k => if Z.testbit (b (Z.to_nat (k / 8))) (k mod 8) then u32 (d + 2 ^ k) else d) (zrange 8 32) (b 0%nat) =
  b 0%nat + 2^8 * b 1%nat + 2^16 * b 2%nat + 2^24 * b 3%nat.
Proof.
  intros H. pose proof (H 0%nat ltac:(lia)). pose proof (H 1%nat ltac:(lia)). pose proof (H 2%nat ltac:(lia)). pose proof (H 3%nat ltac:(lia)).
  replace (zrange 8 32) with ((map (fun k => 8 * 1 + k) (zrange 0 8) ++ map (fun k => 8 * 2 + k) (zrange 0 8)) ++ map (fun k => 8 * 3 + k) (zrange 0 8)) by (vm_compute; reflexivity).
  rewrite !fold_left_app. rewrite (pack_block b 1) by (change (Z.to_nat 1) with 1%nat; lia). change (Z.to_nat 1) with 1%nat.
  rewrite (pack_block b 2) by (change (Z.to_nat 2) with 2%nat; try apply u32_range; lia). change (Z.to_nat 2) with 2%nat.
  rewrite (pack_block b 3) by (change (Z.to_nat 3) with 3%nat; try apply u32_range; lia). change (Z.to_nat 3) with 3%nat.
  change (2^(8*1)) with 256. change (2^(8*2)) with 65536. change (2^(8*3)) with 16777216. change (2^8) with 256. change (2^16) with 65536. change (2^24) with 16777216.
  rewrite (u32_small (b 0%nat + b 1%nat * 256)) by lia. rewrite (u32_small (_ + b 2%nat * 65536)) by lia. rewrite u32_small by lia. lia.
Qed.
(* byte i counted from cell e *)
Definition ebyte (m : mem) (e i : Z) : Z := fld (get m (e + i / 4)) (8 * (i mod 4)) 8.
Definition cw_run (e : Z) (m : mem) (bs : list Z) : cpw * Z * mem := fold_left cw_write bs (cw_init, e, m).
Definition isbyte (b : Z) := 0 <= b < 256.
Definition cw_inv (e : Z) (m : mem) (bs : list Z) (s : cpw * Z * mem) : Prop :=
  let '(c, e', m') := s in
  let q := Z.of_nat (length bs) / 4 in
  cw_sub c = Z.of_nat (length bs) mod 4 /\ u32 e' = u32 (e + q) /\
  (forall j, (j < 4)%nat -> isbyte (cw_b c j) /\ cw_b c j = nth (Z.to_nat (4 * q) + j) bs 13) /\
  (forall i, 0 <= i < 4 * q -> ebyte m' e i = nth (Z.to_nat i) bs 13) /\
  (forall a, (forall k, 0 <= k < q -> idx a <> idx (e + k)) -> get m' a = get m a).
Lemma fld_pack b0 b1 b2 b3 j : isbyte b0 -> isbyte b1 -> isbyte b2 -> isbyte b3 -> 0 <= j < 4 ->
  fld (b0 + 2^8 * b1 + 2^16 * b2 + 2^24 * b3) (8 * j) 8 = if j =? 0 then b0 else if j =? 1 then b1 else if j =? 2 then b2 else b3.
Proof.
  unfold isbyte. intros H0 H1 H2 H3 Hj. unfold fld. change (2^8) with 256. change (2^16) with 65536. change (2^24) with 16777216.
  assert (j = 0 \/ j = 1 \/ j = 2 \/ j = 3) as [ -> |[ -> |[ -> | -> ]]] by lia; cbn [Z.eqb Pos.eqb].
  - change (2^(8*0)) with 1. Z.div_mod_to_equations. lia.
  - change (2^(8*1)) with 256. Z.div_mod_to_equations. lia.
  - change (2^(8*2)) with 65536. Z.div_mod_to_equations. lia.
  - change (2^(8*3)) with 16777216. Z.div_mod_to_equations. lia.
Qed.
(* one flush with a partly filled buffer *)
Lemma cw_flush_step c e m : cw_sub c <> 0 -> (forall j, (j < 4)%nat -> isbyte (cw_b c j)) ->
  exists m', cw_flush (c, e, m) = (cw_init, u32 (e + 1), m') /\ (forall j, 0 <= j < 4 -> fld (get m' e) (8 * j) 8 = cw_b c (Z.to_nat j)) /\ (forall a, idx a <> idx e -> get m' a = get m a).
Proof.
  intros Hs Hb. unfold cw_flush. replace (cw_sub c =? 0) with false by lia. cbv zeta.
  pose proof (Hb 0%nat ltac:(lia)) as H0. pose proof (Hb 1%nat ltac:(lia)) as H1. pose proof (Hb 2%nat ltac:(lia)) as H2. pose proof (Hb 3%nat ltac:(lia)) as H3. unfold isbyte in *.
  rewrite get_upd_eq. rewrite (u32_small (cw_b c 0)) by lia. rewrite pack4 by exact Hb.
  eexists. split; [reflexivity|]. split.
  - intros j Hj. rewrite get_upd_eq, u32_small by (change (2^8) with 256; change (2^16) with 65536; change (2^24) with 16777216; lia). rewrite fld_pack by (unfold isbyte; lia).
    assert (j = 0 \/ j = 1 \/ j = 2 \/ j = 3) as [ -> |[ -> |[ -> | -> ]]] by lia; reflexivity.
  - intros a Ha. rewrite !get_upd_ne by congruence. reflexivity.
Qed.
Lemma near_idx e k j : 0 <= k < 2^30 -> 0 <= j < 2^30 -> idx (e + k) = idx (e + j) -> k = j.
Proof. unfold idx. intros Hk Hj H. Z.div_mod_to_equations. lia. Qed.
Lemma cw_step e m bs : Forall isbyte bs -> Z.of_nat (length bs) < 2^32 -> cw_inv e m bs (cw_run e m bs).
Proof.
  intros HF HL. induction bs as [|x bs IH] using rev_ind.
  - cbn [cw_run fold_left cw_inv length]. change (Z.of_nat 0 / 4) with 0. split; [reflexivity|]. split; [rewrite Z.add_0_r; reflexivity|]. split; [|split; [intros; lia|reflexivity]].
    intros j Hj. cbn [cw_init cw_b]. split; [unfold isbyte; lia|]. destruct j; reflexivity.
  - apply Forall_app in HF as [HF Hx]. apply Forall_inv in Hx. rewrite app_length in HL. cbn [length] in HL. specialize (IH HF ltac:(lia)).
    unfold cw_run in *. rewrite fold_left_app. cbn [fold_left]. destruct (fold_left cw_write bs (cw_init, e, m)) as [[c e'] m']. destruct IH as (I1 & I2 & I3 & I4 & I5).
    set (n := Z.of_nat (length bs)) in *. assert (Hn : 0 <= n) by (unfold n; lia). assert (LN : Z.of_nat (length (bs ++ [x])) = n + 1) by (rewrite app_length; cbn [length]; unfold n; lia).
    set (q := n / 4) in *. set (r := n mod 4) in *. assert (Enr : n = 4 * q + r /\ 0 <= r < 4) by (unfold q, r; Z.div_mod_to_equations; lia). destruct Enr as [En Hr]. clearbody q r.
    assert (Q0 : 0 <= q < 2^30) by lia.
    assert (BUF : forall j, (j < 4)%nat -> isbyte (setb (cw_b c) (Z.to_nat r) x j) /\ setb (cw_b c) (Z.to_nat r) x j = nth (Z.to_nat (4 * q) + j) (bs ++ [x]) 13).
    { intros j Hj. destruct (I3 j Hj) as [J1 J2]. unfold setb. destruct (Nat.eqb_spec j (Z.to_nat r)) as [->|N].
      - split; [exact Hx|]. rewrite app_nth2 by (unfold n in *; lia). replace (_ - _)%nat with 0%nat by (unfold n in *; lia). reflexivity.
      - split; [exact J1|]. rewrite J2. destruct (Nat.lt_ge_cases (Z.to_nat (4 * q) + j) (length bs)) as [L|L]; [rewrite app_nth1 by lia; reflexivity|].
        rewrite nth_overflow by lia. rewrite nth_overflow; [reflexivity|]. rewrite app_length. cbn [length]. unfold n in *. lia. }
    unfold cw_write. rewrite I1. destruct (Z.ltb_spec r 3) as [L|L].
    + replace (0 <=? r) with true by lia. cbn [andb]. unfold cw_inv. rewrite LN. replace ((n + 1) / 4) with q by (Z.div_mod_to_equations; lia). replace ((n + 1) mod 4) with (r + 1) by (Z.div_mod_to_equations; lia).
      cbn [cw_sub cw_b]. split; [apply u32_small; lia|]. split; [exact I2|]. split; [exact BUF|]. split; [|exact I5].
      intros i Hi. rewrite I4 by exact Hi. rewrite app_nth1 by (unfold n in *; lia). reflexivity.
    + rewrite andb_false_r. replace (r =? 3) with true by lia. assert (R3 : r = 3) by lia. replace (Z.to_nat r) with 3%nat in BUF by lia.
      destruct (cw_flush_step (mkcpw r (setb (cw_b c) 3 x)) e' m') as (m2 & E2 & F2 & G2); [cbn [cw_sub]; lia|cbn [cw_b]; intros j Hj; exact (proj1 (BUF j Hj))|].
      rewrite E2. cbn [cw_b] in F2. unfold cw_inv. rewrite LN. replace ((n + 1) / 4) with (q + 1) by (Z.div_mod_to_equations; lia). replace ((n + 1) mod 4) with 0 by (Z.div_mod_to_equations; lia).
      assert (IE : idx e' = idx (e + q)) by (rewrite <- (idx_u32 e'), I2, idx_u32; reflexivity).
      split; [reflexivity|]. split; [rewrite u32_idem, <- u32_add_l, I2, u32_add_l; f_equal; lia|]. split; [|split].
      * intros j Hj. cbn [cw_init cw_b]. split; [unfold isbyte; lia|]. symmetry. apply nth_overflow. lia.
      * intros i Hi. unfold ebyte. destruct (Z.eq_dec (i / 4) q) as [E4|N].
        -- rewrite E4. rewrite <- (get_cong m2 _ _ IE). rewrite F2 by (apply Z.mod_pos_bound; lia). pose proof (Z.mod_pos_bound i 4 ltac:(lia)).
           rewrite (proj2 (BUF (Z.to_nat (i mod 4)) ltac:(lia))). f_equal. Z.div_mod_to_equations. lia.
        -- assert (I4q : 0 <= i / 4 < q) by (clear - Hi N Q0; Z.div_mod_to_equations; lia).
           rewrite G2; [|rewrite IE; intros K; apply near_idx in K; lia].
           fold (ebyte m' e i). rewrite I4 by (clear - I4q; Z.div_mod_to_equations; lia). rewrite app_nth1; [reflexivity|]. clear - I4q En Hr Hn. unfold n in *. Z.div_mod_to_equations. lia.
      * intros a Ha. rewrite G2 by (rewrite IE; apply Ha; lia). apply I5. intros k Hk. apply Ha. lia.
Qed.
(* Bytes written through a CPByteWriter and flushed appear in order from the
   current player's cell on, the last cell is filled up with '\r', the current
   player ends just after it, and nothing else changes, as long as the number
   of bytes is not a multiple of four. *)
Theorem C28_cpwriter : forall e m bs, Forall isbyte bs -> Z.of_nat (length bs) < 2^32 ->
  Z.of_nat (length bs) mod 4 <> 0 ->
  let cells := Z.of_nat (length bs) / 4 + 1 in
  exists m', cw_flush (cw_run e m bs) = (cw_init, u32 (e + cells), m') /\
    (forall i, 0 <= i < 4 * cells -> ebyte m' e i = nth (Z.to_nat i) bs 13) /\
    (forall a, (forall k, 0 <= k < cells -> idx a <> idx (e + k)) -> get m' a = get m a).
Proof.
  intros e m bs HF HL HN cells. pose proof (cw_step e m bs HF HL) as I. destruct (cw_run e m bs) as [[c e'] m']. destruct I as (I1 & I2 & I3 & I4 & I5).
  destruct (cw_flush_step c e' m') as (m2 & E2 & F2 & G2); [lia|intros j Hj; exact (proj1 (I3 j Hj))|].
  assert (IE : idx e' = idx (e + Z.of_nat (length bs) / 4)) by (rewrite <- (idx_u32 e'), I2, idx_u32; reflexivity).
  set (n := Z.of_nat (length bs)) in *. assert (0 <= n) by (unfold n; lia).
  exists m2. rewrite E2. split; [|split].
  - f_equal. f_equal. rewrite <- u32_add_l, I2, u32_add_l. f_equal. unfold cells. lia.
  - intros i Hi. unfold cells in Hi. unfold ebyte. destruct (Z.eq_dec (i / 4) (n / 4)) as [E|N].
    + rewrite E. rewrite <- (get_cong m2 _ _ IE). rewrite F2 by (apply Z.mod_pos_bound; lia). pose proof (Z.mod_pos_bound i 4 ltac:(lia)).
      rewrite (proj2 (I3 (Z.to_nat (i mod 4)) ltac:(lia))). f_equal. Z.div_mod_to_equations. lia.
    + rewrite G2; [|rewrite IE; intros K; apply near_idx in K; Z.div_mod_to_equations; lia]. fold (ebyte m' e i). apply I4. Z.div_mod_to_equations. lia.
  - intros a Ha. unfold cells in Ha. rewrite G2 by (rewrite IE; apply Ha; Z.div_mod_to_equations; lia). apply I5. intros k Hk. apply Ha. lia.
Qed.
(* When the number of bytes is a multiple of four the buffer is empty at the
   flush, and the flush overwrites the cell after the text with zero without
   moving past it: a flush with nothing to write is not a no-op. *)
Theorem C28_cpwriter_flush_refuted : forall e m bs, Forall isbyte bs -> Z.of_nat (length bs) < 2^32 - 4 ->
  Z.of_nat (length bs) mod 4 = 0 ->
  exists e' m', snd (fst (cw_flush (cw_run e m bs))) = e' /\ snd (cw_flush (cw_run e m bs)) = m' /\
    u32 e' = u32 (e + Z.of_nat (length bs) / 4) /\ get m' e' = 0 /\
    (forall i, 0 <= i < Z.of_nat (length bs) -> ebyte m' e i = nth (Z.to_nat i) bs 13).
Proof.
  intros e m bs HF HL HN. pose proof (cw_step e m bs HF ltac:(lia)) as I. destruct (cw_run e m bs) as [[c e'] m']. destruct I as (I1 & I2 & I3 & I4 & I5).
  assert (IE : idx e' = idx (e + Z.of_nat (length bs) / 4)) by (rewrite <- (idx_u32 e'), I2, idx_u32; reflexivity).
  set (n := Z.of_nat (length bs)) in *. assert (0 <= n) by (unfold n; lia).
  unfold cw_flush. rewrite I1, HN. cbn [Z.eqb fst snd]. exists e', (upd m' e' 0). repeat split; [exact I2|apply get_upd_eq|].
  intros i Hi. unfold ebyte. rewrite get_upd_ne; [apply I4; Z.div_mod_to_equations; lia|].
  rewrite IE. intros K. apply near_idx in K; Z.div_mod_to_equations; lia.
Qed.
(* a "byte" above 255 in the first slot of a cell spills into its neighbours *)
Theorem C28_cpwriter_wide_refuted : exists b c m', cw_flush (cw_run 0 (fun _ => 0) [b; c]) = (cw_init, 1, m') /\ fld (get m' 0) 8 8 <> c.
Proof. exists 0x141, 0x42. eexists. split; [vm_compute; reflexivity|]. vm_compute. discriminate. Qed.
(* EUDByteStream.copyto a writer stores the offset into the trigger's condition
   area; the writer keeps writing at its old position. *)
Theorem C28_copyto_refuted : forall W sub off suboff m, idx sub <> idx (W + 86) ->
  get (copyto_writer W sub off suboff m) (W + 86) = get m (W + 86).
Proof.
  intros W sub off suboff m H. unfold copyto_writer. rewrite get_upd_ne by congruence. apply get_upd_ne. intros K. apply near_idx in K; lia.
Qed.

(* ---------- concrete instances ---------- *)
(* copying downwards, or between disjoint ranges, never clobbers the source *)
Lemma no_clobber_down n d s : 0 <= d <= s -> s + Z.of_nat n <= 2^32 -> no_clobber n d s.
Proof. intros H1 H2 i j Hij Q. rewrite !u32_small in Q by lia. lia. Qed.
Lemma no_clobber_apart n d s : 0 <= s -> s + Z.of_nat n <= d -> d + Z.of_nat n <= 2^32 -> no_clobber n d s.
Proof. intros H1 H2 H3 i j Hij Q. rewrite !u32_small in Q by lia. lia. Qed.
Definition ex_bytes : mem := fun a => if a =? 100 then 0x64636261 else if a =? 101 then 0x00006665 else 0.
Definition ex_addr (i : Z) : Z := 0x58A364 + 400 + i.
Example C28_memcpy_example : let m := f_memcpy (PVar (ex_addr 9)) (PInt (ex_addr 1)) (PInt 5) ex_bytes in
  no_clobber 5 (ex_addr 9) (ex_addr 1) /\ map (fun i => byte m (ex_addr i)) [8; 9; 10; 11; 12; 13; 14] = [0; 0x62; 0x63; 0x64; 0x65; 0x66; 0].
Proof. split; [apply no_clobber_apart; vm_compute; congruence|vm_compute; reflexivity]. Qed.
(* overlapping upwards: the copy runs forwards, so the first byte is repeated *)
Example C28_memcpy_overlap_example : map (fun i => byte (f_memcpy (PVar (ex_addr 1)) (PVar (ex_addr 0)) (PVar 4) ex_bytes) (ex_addr i)) [0; 1; 2; 3; 4; 5] = [0x61; 0x61; 0x61; 0x61; 0x61; 0x66].
Proof. vm_compute. reflexivity. Qed.
Example C28_strcpy_example : exists m', f_strcpy 7 (ex_addr 9) (ex_addr 0) ex_bytes = Some (m', ex_addr 9) /\ byte m' (ex_addr 14) = 0x66.
Proof.
  destruct (C28_strcpy 7 (ex_addr 9) (ex_addr 0) 6 ex_bytes) as (m' & E & B & _).
  - lia.
  - lia.
  - intros i Hi. assert (i = 0 \/ i = 1 \/ i = 2 \/ i = 3 \/ i = 4 \/ i = 5) as [ -> |[ -> |[ -> |[ -> |[ -> | -> ]]]]] by lia; vm_compute; discriminate.
  - reflexivity.
  - apply no_clobber_apart; vm_compute; congruence.
  - exists m'. split; [exact E|]. change (ex_addr 14) with (ex_addr 9 + 5). rewrite B by lia. reflexivity.
Qed.
Example C28_strcmp_example : f_strcmp 9 (ex_addr 0) (ex_addr 1) ex_bytes = Some (u32 (0x61 - 0x62)) /\ f_memcmp (ex_addr 0) (ex_addr 0) 6 ex_bytes = 0.
Proof. split; vm_compute; reflexivity. Qed.
Example C28_dwread_example : f_dwread (PVar (ex_addr 3)) ex_bytes = 0x00666564 /\ f_dwread (PInt (ex_addr 0)) (f_dwwrite (PInt (ex_addr 2)) 0x11223344 ex_bytes) = 0x33446261.
Proof. split; vm_compute; reflexivity. Qed.
Example C28_cpwriter_example : let bs := [0x61; 0x62; 0x63; 0x64; 0x65] in Forall isbyte bs /\
  exists m', cw_flush (cw_run 100 (fun _ => 7) bs) = (cw_init, 102, m') /\ get m' 100 = 0x64636261 /\ get m' 101 = 0x0D0D0D65 /\ get m' 102 = 7.
Proof. split; [repeat constructor; unfold isbyte; lia|]. eexists. split; [vm_compute; reflexivity|]. repeat split; vm_compute; reflexivity. Qed.
Print Assumptions C28_memcpy.
Print Assumptions C28_memcpy_plain.
Print Assumptions C28_memcmp.
Print Assumptions C28_strcpy.
Print Assumptions C28_strcmp.
Print Assumptions C28_dwread.
Print Assumptions C28_dwwrite.
Print Assumptions C28_cpwriter.
Print Assumptions C28_cpwriter_flush_refuted.
Print Assumptions C28_cpwriter_wide_refuted.
Print Assumptions C28_copyto_refuted.
