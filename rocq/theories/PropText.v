(* Property C62: texts and numbers printed into memory. *)
From Coq Require Import ZArith Lia List Bool ZifyBool ZifyNat.
From Verif Require Import Word Machine MachineProofs VarModel ReadModel BwModel PropBw BlkModel PropBlk PropMem ParseModel PropParse TextModel.
Import ListNotations.
Open Scope Z_scope.

(* ---------- specification ---------- *)
(* the decimal numeral of v: no leading zeros, "0" for zero *)
Definition decimal (v : Z) (s : list Z) : Prop := numeral 10 s v /\ s <> [] /\ (hd 0 s = 48 -> s = [48]).
(* eight upper case hexadecimal digits *)
Definition hex8 (v : Z) (s : list Z) : Prop := numeral 16 s v /\ length s = 8%nat /\ Forall (fun b => b <= 70) s.
(* the text at p up to the first zero byte *)
Definition string_at (m : mem) (p : Z) (s : list Z) : Prop :=
  (forall i, (i < length s)%nat -> byte m (p + Z.of_nat i) = nth i s 0 /\ nth i s 0 <> 0) /\ byte m (p + Z.of_nat (length s)) = 0.
(* n bytes from d on and k bytes from p on do not overlap *)
Definition apart (d n p k : Z) : Prop := forall i j, 0 <= i < n -> 0 <= j < k -> u32 (d + i) <> u32 (p + j).
(* the text of an argument, when nothing it is read from overlaps the n bytes at d *)
Inductive item_text (m : mem) (d n : Z) : item -> list Z -> Prop :=
| it_bytes : forall b, Forall isbyte b -> item_text m d n (IBytes b) b
| it_int : forall z s, decimal (z mod 2^32) s -> item_text m d n (IInt z) s
| it_ptr : forall p s, string_at m p s -> apart d n p (Z.of_nat (length s) + 1) -> item_text m d n (IPtr p) s
| it_epd : forall e s, string_at m (0x58A364 + 4 * e) s -> apart d n (0x58A364 + 4 * e) (Z.of_nat (length s) + 1) -> item_text m d n (IEpd e) s
| it_hex : forall v s, 0 <= v < 2^32 -> hex8 v s -> item_text m d n (IHex v) s
| it_num : forall v s, 0 <= v < 2^32 -> decimal v s -> item_text m d n (INum v) s.
(* the bytes s appear from d on and nothing else changes *)
Definition written (m m' : mem) (d : Z) (s : list Z) : Prop :=
  (forall i, (i < length s)%nat -> byte m' (d + Z.of_nat i) = nth i s 0) /\
  (forall x, (forall i, (i < length s)%nat -> u32 x <> u32 (d + Z.of_nat i)) -> byte m' x = byte m x).
(* the object at D holds the bytes *)
Definition holds (m : mem) (D : Z) (data : list Z) : Prop := forall i, (i < length data)%nat -> byte m (D + Z.of_nat i) = nth i data 0.

(* ---------- writing ---------- *)
Notation len s := (Z.of_nat (length s)).
Lemma written_nil m d : written m m d [].
Proof. split; [intros i H; cbn in H; lia|reflexivity]. Qed.
Lemma written_app m0 m1 m2 d s1 s2 : written m0 m1 d s1 -> written m1 m2 (d + len s1) s2 -> len s1 + len s2 <= 2^32 ->
  written m0 m2 d (s1 ++ s2).
Proof.
  intros [A1 A2] [B1 B2] HL. split.
  - intros i Hi. rewrite app_length in Hi. destruct (Nat.lt_ge_cases i (length s1)) as [L|L].
    + rewrite app_nth1 by lia. rewrite B2; [apply A1; exact L|]. intros j Hj. replace (d + len s1 + Z.of_nat j) with (d + Z.of_nat i + (len s1 + Z.of_nat j - Z.of_nat i)) by lia.
      apply u32_far. lia.
    + rewrite app_nth2 by lia. rewrite <- B1 by lia. f_equal. lia.
  - intros x Hx. rewrite app_length in Hx. rewrite B2; [apply A2; intros i Hi; apply Hx; lia|].
    intros i Hi. specialize (Hx (length s1 + i)%nat ltac:(lia)). rewrite Nat2Z.inj_add in Hx. rewrite Z.add_assoc in Hx. exact Hx.
Qed.
Lemma written_byte m q d b : at_addr q d -> isbyte b ->
  written m (fst (writebyte m q b)) d [b] /\ at_addr (snd (writebyte m q b)) (d + 1).
Proof.
  intros H Hb. destruct (writebyte_at m q d b H) as [W1 W2]. split; [|exact W2]. unfold isbyte in Hb. rewrite Z.mod_small in W1 by lia. split.
  - intros i Hi. cbn [length] in Hi. replace i with 0%nat by lia. rewrite W1. destruct (Z.eq_dec _ _) as [_|N]; [reflexivity|]. exfalso. apply N. f_equal. lia.
  - intros x Hx. rewrite W1. destruct (Z.eq_dec _ _) as [E|_]; [|reflexivity]. exfalso. apply (Hx 0%nat); [cbn; lia|]. rewrite E. f_equal. lia.
Qed.
Lemma at_addr_eq r p p' : p = p' -> at_addr r p -> at_addr r p'.
Proof. intros ->. auto. Qed.
Lemma write_all_ok bs : forall m q d, at_addr q d -> Forall isbyte bs -> len bs <= 2^32 ->
  written m (fst (write_all bs m q)) d bs /\ at_addr (snd (write_all bs m q)) (d + len bs).
Proof.
  induction bs as [|b bs IH]; intros m q d H HF HL; cbn [write_all].
  - split; [apply written_nil|]. eapply at_addr_eq; [|exact H]. cbn. lia.
  - inversion HF; subst. cbn [length] in HL. destruct (written_byte m q d b H) as [W1 W2]; [assumption|]. destruct (writebyte m q b) as [m1 q1]. cbn [fst snd] in *.
    destruct (IH m1 q1 (d + 1) W2) as [I1 I2]; [assumption|lia|]. split.
    + change (b :: bs) with ([b] ++ bs). apply written_app with m1; [exact W1|exact I1|cbn [length]; lia].
    + eapply at_addr_eq; [|exact I2]. cbn [length]. lia.
Qed.
Lemma written_safe m m' d s p k n : written m m' d s -> apart d n p k -> len s <= n -> forall j, 0 <= j < k -> byte m' (p + j) = byte m (p + j).
Proof. intros [_ W] A L j Hj. apply W. intros i Hi E. apply (A (Z.of_nat i) j); [lia|exact Hj|]. symmetry. exact E. Qed.

(* ---------- numerals ---------- *)
Lemma num_snoc_inv r l b n : numeral r (l ++ [b]) n -> exists n' v, numeral r l n' /\ digit b v /\ v < r /\ n = r * n' + v.
Proof.
  intros H. inversion H as [E|l' n' b' v A B C E1 E2]; [destruct l; discriminate|]. apply app_inj_tail in E1 as [-> ->]. eauto 8.
Qed.
Lemma num_nil_inv r n : numeral r [] n -> n = 0.
Proof. intros H. inversion H as [|l ? ? ? ? ? ? E]; [reflexivity|destruct l; discriminate]. Qed.
Lemma digit_pos b v : digit b v -> 0 <= v.
Proof. destruct 1; lia. Qed.
Lemma num_nonneg r l n : 0 <= r -> numeral r l n -> 0 <= n.
Proof. intros Hr H. induction H; [lia|]. apply digit_pos in H0. nia. Qed.
Lemma num_byte r l n : numeral r l n -> Forall isbyte l.
Proof. intros H. induction H; [constructor|]. apply Forall_app. split; [assumption|]. constructor; [|constructor]. unfold isbyte. destruct H0; lia. Qed.
Lemma dig10 b v : digit b v -> v < 10 -> b = 48 + v.
Proof. destruct 1; lia. Qed.
Lemma num_lead l n : numeral 10 l n -> l <> [] -> hd 0 l <> 48 -> 0 < n.
Proof.
  intros H. induction H as [|l n b v H IH Hd Hv]; [congruence|]. intros _ Hh. pose proof (digit_pos _ _ Hd). pose proof (num_nonneg 10 _ _ ltac:(lia) H).
  destruct l as [|c l]; [cbn in Hh; apply num_nil_inv in H; apply dig10 in Hd; lia|]. specialize (IH ltac:(discriminate) Hh). lia.
Qed.
Lemma decimal_unique v s s' : decimal v s -> decimal v s' -> s = s'.
Proof.
  revert v s'. induction s as [|b l IH] using rev_ind; intros v s' (A & A1 & A2) (B & B1 & B2); [congruence|].
  destruct s' as [|b' l' _] using rev_ind; [congruence|].
  apply num_snoc_inv in A as (n & w & An & Ad & Aw & Ev). apply num_snoc_inv in B as (n' & w' & Bn & Bd & Bw & Ev').
  pose proof (digit_pos _ _ Ad). pose proof (digit_pos _ _ Bd). assert (n = n' /\ w = w') as [<- <-] by lia.
  rewrite (dig10 _ _ Ad Aw), (dig10 _ _ Bd Bw). f_equal.
  assert (LA : l = [] \/ (l <> [] /\ hd 0 l <> 48)).
  { destruct l as [|c l]; [left; reflexivity|right]. split; [discriminate|]. cbn in *. intros ->. specialize (A2 eq_refl). destruct l; discriminate. }
  assert (LB : l' = [] \/ (l' <> [] /\ hd 0 l' <> 48)).
  { destruct l' as [|c l'']; [left; reflexivity|right]. split; [discriminate|]. cbn in *. intros ->. specialize (B2 eq_refl). destruct l''; discriminate. }
  destruct LA as [->|[LA LA']], LB as [->|[LB LB']]; auto.
  - apply num_nil_inv in An. pose proof (num_lead _ _ Bn LB LB'). lia.
  - apply num_nil_inv in Bn. pose proof (num_lead _ _ An LA LA'). lia.
  - apply (IH n l'); (split; [assumption|split; [assumption|intros; contradiction]]).
Qed.
Lemma hex_unique : forall k s s' v, length s = k -> length s' = k -> numeral 16 s v -> numeral 16 s' v -> Forall (fun b => b <= 70) s -> Forall (fun b => b <= 70) s' -> s = s'.
Proof.
  induction k as [|k IH]; intros s s' v L L' A B F F'; [destruct s, s'; cbn in *; congruence|].
  destruct s as [|b l _] using rev_ind; [discriminate|]. destruct s' as [|b' l' _] using rev_ind; [discriminate|].
  rewrite app_length in L, L'. cbn [length] in L, L'. apply Forall_app in F as [F Fb], F' as [F' Fb']. apply Forall_inv in Fb, Fb'.
  apply num_snoc_inv in A as (n & w & An & Ad & Aw & Ev). apply num_snoc_inv in B as (n' & w' & Bn & Bd & Bw & Ev').
  pose proof (digit_pos _ _ Ad). pose proof (digit_pos _ _ Bd). assert (n = n' /\ w = w') as [<- <-] by lia.
  assert (b = b') as -> by (destruct Ad; inversion Bd; lia). f_equal. apply (IH l l' n); auto; lia.
Qed.
Lemma decimal_snoc n s c : decimal n s -> n <> 0 -> 0 <= c < 10 -> decimal (10 * n + c) (s ++ [48 + c]).
Proof.
  intros (A & A1 & A2) Hn Hc. split; [|split].
  - apply n_snoc with (v := c); [exact A|constructor; lia|lia].
  - destruct s; discriminate.
  - destruct s as [|b s]; [congruence|]. cbn. intros ->. specialize (A2 eq_refl). injection A2 as ->. exfalso.
    apply (num_snoc_inv 10 [] 48) in A as (n' & w & An & Ad & Aw & E). apply num_nil_inv in An. apply dig10 in Ad; lia.
Qed.
Lemma decimal_one c : 0 <= c < 10 -> decimal c [48 + c].
Proof.
  intros Hc. split; [|split; [discriminate|cbn; intros H; f_equal; lia]]. replace c with (10 * 0 + c) at 2 by lia.
  apply (n_snoc 10 [] 0); [constructor|constructor; lia|lia].
Qed.
Lemma dw_chars_ok : forall i number ch, 0 <= number < 10 ^ Z.of_nat (S i) -> exists s, dw_chars i number ch = s ++ ch /\ decimal number s.
Proof.
  induction i as [|i IH]; intros number ch H; cbn [dw_chars]; rewrite u32_small by (pose proof (Z.mod_pos_bound number 10); lia); replace (number mod 10 + 48) with (48 + number mod 10) by lia.
  - change (10 ^ Z.of_nat 1) with 10 in H. rewrite Z.mod_small by lia. exists [48 + number]. split; [reflexivity|apply decimal_one; lia].
  - rewrite (Nat2Z.inj_succ (S i)), Z.pow_succ_r in H by lia.
    destruct (Z.eqb_spec (number / 10) 0) as [E|N].
    + assert (number < 10) by (apply Z.div_small_iff in E; lia). rewrite Z.mod_small by lia. exists [48 + number]. split; [reflexivity|apply decimal_one; lia].
    + destruct (IH (number / 10) (48 + number mod 10 :: ch)) as (s & E & D).
      { split; [apply Z.div_pos; lia|]. apply Z.div_lt_upper_bound; lia. }
      exists (s ++ [48 + number mod 10]). rewrite E, <- app_assoc. split; [reflexivity|]. rewrite (Z.div_mod number 10) at 1 by lia. apply decimal_snoc; [exact D|exact N|apply Z.mod_pos_bound; lia].
Qed.
Lemma py_str_ok : forall k n, 0 <= n < 10 ^ Z.of_nat (S k) -> decimal n (py_str (S k) n).
Proof.
  induction k as [|k IH]; intros n H.
  - change (10 ^ Z.of_nat 1) with 10 in H. cbn [py_str]. replace (n <? 10) with true by lia. apply decimal_one. lia.
  - rewrite (Nat2Z.inj_succ (S k)), Z.pow_succ_r in H by lia. change (py_str (S (S k)) n) with (if n <? 10 then [48 + n] else py_str (S k) (n / 10) ++ [48 + n mod 10]).
    destruct (Z.ltb_spec n 10) as [L|L]; [apply decimal_one; lia|]. rewrite (Z.div_mod n 10) at 1 by lia. apply decimal_snoc; [|Z.div_mod_to_equations; lia|apply Z.mod_pos_bound; lia].
    apply IH. split; [apply Z.div_pos; lia|]. apply Z.div_lt_upper_bound; lia.
Qed.
Lemma ptr_digits_app i : forall n ch, ptr_digits i n ch = ptr_digits i n [] ++ ch.
Proof. induction i as [|i IH]; intros n ch; cbn [ptr_digits]; [reflexivity|]. rewrite IH, (IH _ [_]), <- app_assoc. reflexivity. Qed.
Lemma ptr_char_ok d : 0 <= d < 16 -> digit (ptr_char d) d /\ ptr_char d <= 70.
Proof.
  intros H. unfold ptr_char. rewrite (u32_small (d + 48)) by lia. destruct (Z.leb_spec (48 + 10) (d + 48)) as [L|L].
  - rewrite u32_small by lia. replace (d + 48 + (65 - 48 - 10)) with (65 + (d - 10)) by lia. split; [constructor; lia|lia].
  - replace (d + 48) with (48 + d) by lia. split; [constructor; lia|lia].
Qed.
Lemma ptr_ok : forall i n, 0 <= n < 16 ^ Z.of_nat i -> let s := map ptr_char (ptr_digits i n []) in numeral 16 s n /\ length s = i /\ Forall (fun b => b <= 70) s.
Proof.
  induction i as [|i IH]; intros n H; cbv zeta; cbn [ptr_digits].
  - change (16 ^ Z.of_nat 0) with 1 in H. replace n with 0 by lia. repeat split; constructor.
  - rewrite Nat2Z.inj_succ, Z.pow_succ_r in H by lia. rewrite ptr_digits_app, map_app. pose proof (Z.mod_pos_bound n 16 ltac:(lia)).
    destruct (ptr_char_ok (n mod 16)) as [C1 C2]; [lia|]. destruct (IH (n / 16)) as (I1 & I2 & I3); [split; [apply Z.div_pos; lia|apply Z.div_lt_upper_bound; lia]|].
    split; [|split].
    + rewrite (Z.div_mod n 16) at 3 by lia. apply n_snoc; [exact I1|exact C1|lia].
    + rewrite app_length, I2. cbn. lia.
    + apply Forall_app. split; [exact I3|]. constructor; [exact C2|constructor].
Qed.
Lemma hex8_exists v : 0 <= v < 2^32 -> hex8 v (map ptr_char (ptr_digits 8 v [])).
Proof. intros H. apply (ptr_ok 8 v). change (16 ^ Z.of_nat 8) with (2^32). exact H. Qed.

(* ---------- obfuscated texts ---------- *)
Lemma prefixb_ok bb : forall data, prefixb bb data = true -> exists post, data = bb ++ post.
Proof.
  induction bb as [|b bb IH]; intros data H; [exists data; reflexivity|]. destruct data as [|d data]; [discriminate|]. cbn in H.
  apply andb_true_iff in H as [E H]. apply IH in H as [post ->]. exists post. cbn. f_equal. lia.
Qed.
Lemma bfind_ok bb : forall data a i, bfind bb data a = Some i -> exists pre post, data = pre ++ bb ++ post /\ i = a + len pre.
Proof.
  induction data as [|d data IH]; intros a i H; cbn [bfind] in H.
  - destruct (prefixb bb []) eqn:E; [|discriminate]. injection H as <-. apply prefixb_ok in E as [post E]. exists [], post. split; [exact E|cbn; lia].
  - destruct (prefixb bb (d :: data)) eqn:E.
    + injection H as <-. apply prefixb_ok in E as [post E]. exists [], post. split; [exact E|cbn; lia].
    + apply IH in H as (pre & post & -> & ->). exists (d :: pre), post. split; [reflexivity|cbn [length]; lia].
Qed.
Lemma find_or_add_ok key data b off data' : b <> [] -> find_or_add key data b = (off, data') ->
  (exists ext, data' = data ++ ext) /\
  forall j, (j < length b)%nat -> (j <= Z.to_nat off < length data')%nat /\ 0 <= off /\ nth (Z.to_nat off - j) data' 0 = Z.lxor (nth j b 0) key.
Proof.
  intros Hb H. unfold find_or_add in H. set (bb := map (fun x => Z.lxor x key) (rev b)) in *.
  assert (LB : length bb = length b) by (unfold bb; rewrite map_length, rev_length; reflexivity).
  assert (L0 : (0 < length b)%nat) by (destruct b; [congruence|cbn; lia]).
  assert (X : forall pre post j, (j < length b)%nat -> nth (length pre + (length b - 1) - j) (pre ++ bb ++ post) 0 = Z.lxor (nth j b 0) key).
  { intros pre post j Hj. rewrite app_nth2 by lia. rewrite app_nth1 by lia. replace (length pre + (length b - 1) - j - length pre)%nat with (length b - S j)%nat by lia.
    unfold bb. rewrite nth_indep with (d' := Z.lxor 0 key) by (rewrite map_length, rev_length; lia). rewrite (map_nth (fun x => Z.lxor x key)).
    rewrite rev_nth by lia. do 2 f_equal. lia. }
  destruct (bfind bb data 0) as [i|] eqn:E.
  - injection H as <- <-. apply bfind_ok in E as (pre & post & -> & ->). split; [exists []; rewrite app_nil_r; reflexivity|].
    intros j Hj. rewrite !app_length, LB. replace (Z.to_nat (0 + len pre + (Z.of_nat (length b) - 1))) with (length pre + (length b - 1))%nat by lia.
    split; [lia|]. split; [lia|]. apply X. exact Hj.
  - injection H as <- <-. split; [exists bb; reflexivity|]. intros j Hj. rewrite !app_length, LB.
    replace (Z.to_nat (Z.of_nat (length data + length b) - 1)) with (length data + (length b - 1))%nat by lia. split; [lia|]. split; [lia|].
    rewrite <- (X data [] j Hj). rewrite app_nil_r. reflexivity.
Qed.
(* adding under the masks 0xAA and 0x55 is exclusive or *)
Lemma wadd_table : forallb (fun M => forallb (fun d => forallb (fun v => wadd M (Z.of_nat d) (Z.of_nat v) =? Z.lxor (Z.of_nat d) (Z.land (Z.of_nat v) M)) (seq 0 256)) (seq 0 256)) [0xAA; 0x55] = true.
Proof. vm_compute. reflexivity. Qed.
Lemma wadd_bytes M d v : M = 0xAA \/ M = 0x55 -> isbyte d -> isbyte v -> wadd M d v = Z.lxor d (Z.land v M).
Proof.
  unfold isbyte. intros HM Hd Hv. pose proof wadd_table as T. rewrite forallb_forall in T. specialize (T M ltac:(cbn; intuition)). rewrite forallb_forall in T.
  specialize (T (Z.to_nat d) ltac:(apply in_seq; lia)). rewrite forallb_forall in T. specialize (T (Z.to_nat v) ltac:(apply in_seq; lia)).
  rewrite !Z2Nat.id in T by lia. lia.
Qed.
Lemma land255_byte d : isbyte (Z.land d 255).
Proof. unfold isbyte. change 255 with (Z.ones 8). rewrite Z.land_ones by lia. apply Z.mod_pos_bound. lia. Qed.
Lemma land255_id d : isbyte d -> Z.land d 255 = d.
Proof. unfold isbyte. intros H. change 255 with (Z.ones 8). rewrite Z.land_ones by lia. apply Z.mod_small. lia. Qed.
Lemma mask_low M d : M = 0xAA \/ M = 0x55 -> Z.land d M = Z.land (Z.land d 255) M.
Proof. intros [->| ->]; rewrite <- Z.land_assoc; reflexivity. Qed.
Lemma wadd_low M d v : M = 0xAA \/ M = 0x55 -> Z.land (wadd M d v) 255 = Z.lxor (Z.land d 255) (Z.land v M).
Proof.
  intros HM. rewrite (mask_low M v HM), <- (wadd_bytes M) by (auto using land255_byte). unfold wadd.
  rewrite <- !(mask_low M _ HM). set (t := Z.land d M + Z.land v M).
  assert (T : Z.land (Z.land t M) 255 = Z.land t M) by (rewrite <- Z.land_assoc; destruct HM as [->| ->]; reflexivity).
  rewrite Z.land_lor_distr_l, T. f_equal. apply Z.bits_inj'. intros k Hk. rewrite !Z.land_spec, !Z.ldiff_spec, !Z.land_spec. destruct (Z.testbit d k), (Z.testbit 255 k), (Z.testbit M k); reflexivity.
Qed.
Lemma wadd_byte M d v : M = 0xAA \/ M = 0x55 -> isbyte d -> wadd M d v = Z.lxor d (Z.land v M) /\ isbyte (wadd M d v).
Proof.
  intros HM Hd. assert (E : wadd M d v = wadd M d (Z.land v 255)) by (unfold wadd; rewrite <- (mask_low M v HM); reflexivity).
  assert (L : wadd M d v = Z.lxor d (Z.land v M)) by (rewrite E, wadd_bytes by (auto using land255_byte); rewrite <- (mask_low M v HM); reflexivity).
  split; [exact L|]. rewrite L, <- (land255_id d Hd), <- wadd_low by exact HM. apply land255_byte.
Qed.
Lemma land_split v : Z.lxor (Z.land v 0xAA) (Z.land v 0x55) = Z.land v 255.
Proof.
  rewrite (mask_low 0xAA), (mask_low 0x55) by auto. pose proof (land255_byte v) as H. rewrite <- (land255_id (Z.land v 255) H). set (w := Z.land v 255) in *. clearbody w. rewrite !land255_id by exact H.
  apply Z.bits_inj'. intros k Hk. rewrite Z.lxor_spec, !Z.land_spec. destruct (Z.ltb_spec k 8) as [L|L].
  - assert (k = 0 \/ k = 1 \/ k = 2 \/ k = 3 \/ k = 4 \/ k = 5 \/ k = 6 \/ k = 7) as C by lia.
    repeat match type of C with _ \/ _ => destruct C as [C|C] end; subst k; destruct (Z.testbit w _); reflexivity.
  - unfold isbyte in H. destruct (Z.eq_dec w 0) as [->|]; [rewrite Z.bits_0; reflexivity|]. rewrite (Z.bits_above_log2 w k); [reflexivity|lia|]. apply Z.log2_lt_pow2; [lia|]. apply Z.lt_le_trans with (2^8); [lia|]. apply Z.pow_le_mono_r; lia.
Qed.
Lemma start_key_low key k r : isbyte key -> isbyte k -> Z.land (start_key (junk_key key k r) k) 255 = key.
Proof.
  intros H1 H2. unfold start_key. rewrite !wadd_low by auto. rewrite Z.lxor_assoc, land_split, (land255_id k H2).
  assert (J : Z.land (junk_key key k r) 255 = Z.lxor key k).
  { unfold junk_key. rewrite Z.land_lor_distr_l. assert (X : Z.land (Z.shiftl (r mod 16777216) 8) 255 = 0).
    { apply Z.bits_inj'. intros i Hi. rewrite Z.land_spec, Z.bits_0. destruct (Z.ltb_spec i 8) as [L|L]; [rewrite Z.shiftl_spec_low by lia; reflexivity|].
      change 255 with (Z.ones 8). rewrite Z.ones_spec_high by lia. apply andb_false_r. }
    rewrite X, Z.lor_0_r. apply Z.bits_inj'. intros i Hi. rewrite Z.land_spec, Z.lxor_spec. destruct (Z.ltb_spec i 8) as [L|L].
    - change 255 with (Z.ones 8). rewrite Z.ones_spec_low by lia. apply andb_true_r.
    - rewrite <- (land255_id key H1), <- (land255_id k H2), !Z.land_spec. change 255 with (Z.ones 8). rewrite Z.ones_spec_high by lia. rewrite !andb_false_r. reflexivity. }
  rewrite J, Z.lxor_assoc, Z.lxor_nilpotent. apply Z.lxor_0_r.
Qed.
Lemma decode key k1 k2 c : isbyte key -> Z.land k1 255 = key -> Z.land k2 255 = key -> isbyte c ->
  wadd 0x55 (wadd 0xAA (Z.lxor c key) k1) k2 = c.
Proof.
  intros Hk H1 H2 Hc. assert (X : isbyte (Z.lxor c key)).
  { rewrite <- (land255_id c Hc), <- (land255_id key Hk).
    assert (E : Z.lxor (Z.land c 255) (Z.land key 255) = Z.land (Z.lxor c key) 255). { apply Z.bits_inj'. intros i Hi. rewrite Z.lxor_spec, !Z.land_spec, Z.lxor_spec. destruct (Z.testbit c i), (Z.testbit key i), (Z.testbit 255 i); reflexivity. }
    rewrite E. apply land255_byte. }
  destruct (wadd_byte 0xAA _ k1 ltac:(auto) X) as [E1 B1]. destruct (wadd_byte 0x55 _ k2 ltac:(auto) B1) as [E2 _]. rewrite E2, E1.
  rewrite (mask_low 0xAA k1), H1, (mask_low 0x55 k2), H2 by auto. rewrite !Z.lxor_assoc, land_split, land255_id by exact Hk. rewrite Z.lxor_nilpotent. apply Z.lxor_0_r.
Qed.
Lemma text_pos_at D off : D mod 4 = 0 -> at_addr (text_pos D off) (D + off).
Proof.
  intros H. unfold text_pos, at_addr. cbn [fst snd]. rewrite idx_u32. split; [f_equal|]; Z.div_mod_to_equations; lia.
Qed.
Lemma step_back_at r p : at_addr r (p + 1) -> at_addr (step_back r) (p - 1).
Proof.
  destruct r as [e i]. intros [H1 H2]. cbn [fst snd] in *. unfold step_back, at_addr. cbn [fst snd]. rewrite idx_u32. subst i.
  destruct (Z.leb_spec ((p + 1) mod 4) 1) as [L|L].
  - rewrite (idx_add _ _ (-1) H1). split; [f_equal|]; Z.div_mod_to_equations; lia.
  - assert (E : idx (u32 (e + 1)) = idx ((p + 1) / 4 - 0x58A364 / 4 + 1)) by (rewrite idx_u32; apply idx_add, H1).
    rewrite (idx_add _ _ (-1) E). split; [f_equal|]; Z.div_mod_to_equations; lia.
Qed.
Lemma text_loop_ok key k1 k2 add L : isbyte key -> Z.land k1 255 = key -> Z.land k2 255 = key -> 0 < add -> add * (L - 1) < 2^31 <= add * L -> add * L < 2^32 ->
  forall s k fuel r q p d m, (length s < fuel)%nat -> Forall isbyte s -> 0 <= k -> k + len s = L -> at_addr r p -> at_addr q d ->
  (forall j, (j < length s)%nat -> byte m (p - Z.of_nat j) = Z.lxor (nth j s 0) key) ->
  (forall i j, (i < length s)%nat -> (j < length s)%nat -> u32 (d + Z.of_nat i) <> u32 (p - Z.of_nat j)) ->
  exists m' q', text_loop fuel add k1 k2 (add * k) r q m = Some (m', q') /\ written m m' d s /\ at_addr q' (d + len s).
Proof.
  intros Hkey HK1 HK2 Hadd HL HL2. induction s as [|c s IH]; intros k fuel r q p d m Hf HF Hk Hsum Hr Hq Hb Hap; (destruct fuel as [|fuel]; [lia|]); cbn [text_loop].
  - cbn [length] in *. replace (0x80000000 <=? add * k) with true by (replace k with L by lia; lia). exists m, q. split; [reflexivity|]. split; [apply written_nil|]. eapply at_addr_eq; [|exact Hq]. cbn. lia.
  - cbn [length] in *. pose proof (Forall_inv HF) as Hc. pose proof (Forall_inv_tail HF) as HF'. assert (KL : add * k <= add * (L - 1)) by (apply Z.mul_le_mono_nonneg_l; lia).
    assert (KL' : add * (k + 1) <= add * L) by (apply Z.mul_le_mono_nonneg_l; lia). assert (0 <= add * k) by nia.
    replace (0x80000000 <=? add * k) with false by lia.
    destruct (readbyte_at m r p Hr) as [R1 R2]. destruct (readbyte m r) as [b r1]. cbn [fst snd] in *. subst b.
    pose proof (Hb 0%nat ltac:(lia)) as B0. change (Z.of_nat 0) with 0 in B0. rewrite Z.sub_0_r in B0. cbn [nth] in B0. rewrite B0.
    rewrite decode by assumption.
    destruct (written_byte m q d c Hq Hc) as [W1 W2]. destruct (writebyte m q c) as [m1 q1]. cbn [fst snd] in *.
    replace (u32 (add * k + add)) with (add * (k + 1)) by (rewrite u32_small by lia; lia).
    destruct (IH (k + 1) fuel (step_back r1) q1 (p - 1) (d + 1) m1) as (m' & q' & E & W & A); auto; try lia.
    + apply step_back_at, R2.
    + intros j Hj. replace (p - 1 - Z.of_nat j) with (p - Z.of_nat (S j)) by lia. rewrite (proj2 W1).
      * rewrite Hb by lia. reflexivity.
      * intros i Hi. cbn [length] in Hi. replace i with 0%nat by lia. intros Q. apply (Hap 0%nat (S j)); [lia|lia|]. congruence.
    + intros i j Hi Hj. replace (d + 1 + Z.of_nat i) with (d + Z.of_nat (S i)) by lia. replace (p - 1 - Z.of_nat j) with (p - Z.of_nat (S j)) by lia. apply Hap; lia.
    + exists m', q'. split; [exact E|]. split.
      * change (c :: s) with ([c] ++ s). apply written_app with m1; [exact W1|exact W|cbn [length]; nia].
      * eapply at_addr_eq; [|exact A]. lia.
Qed.
Lemma add_count_ok n x a : 0 < n -> add_count n x = Some a -> 0 < a /\ a * (n - 1) < 2^31 <= a * n /\ a * n < 2^32.
Proof.
  intros Hn. unfold add_count, randrange. destruct (Z.ltb_spec (0x80000000 / n + 1) (if n =? 1 then 0xFFFFFFFF else 0x80000000 / (n - 1))) as [L|]; [|discriminate].
  intros H. injection H as <-. set (hi := if n =? 1 then _ else _) in *. pose proof (Z.mod_pos_bound x (hi - (0x80000000 / n + 1)) ltac:(lia)) as M. set (y := x mod _) in *. clearbody y.
  pose proof (Z.div_mod 0x80000000 n ltac:(lia)) as D1. pose proof (Z.mod_pos_bound 0x80000000 n Hn) as D2. set (lo := 0x80000000 / n) in *. set (w := 0x80000000 mod n) in *. clearbody lo w.
  assert (0 <= lo) by nia. change (2^31) with 0x80000000. change (2^32) with 0x100000000.
  destruct (Z.eqb_spec n 1) as [->|N]; unfold hi in *; clear hi; [nia|].
  pose proof (Z.div_mod 0x80000000 (n - 1) ltac:(lia)) as E1. pose proof (Z.mod_pos_bound 0x80000000 (n - 1) ltac:(lia)) as E2. set (h := 0x80000000 / (n - 1)) in *. set (u := 0x80000000 mod (n - 1)) in *. clearbody h u.
  assert (A : (lo + 1 + y) * (n - 1) < 0x80000000) by nia. split; [lia|]. split; [split; [exact A|nia]|]. assert (lo + 1 + y <= (lo + 1 + y) * (n - 1)) by nia. nia.
Qed.

(* ---------- texts in memory ---------- *)
Lemma add_str_ok s : forall fuel r q p d n m, (length s < fuel)%nat -> string_at m p s -> at_addr r p -> at_addr q d -> apart d (len s) p (len s + 1) -> len s <= 2^32 ->
  exists m' q', add_str fuel r q n m = Some (m', q', u32 (n + len s)) /\ written m m' d s /\ at_addr q' (d + len s) \/ s = [] /\ add_str fuel r q n m = Some (m, q, n).
Proof.
  induction s as [|c s IH]; intros fuel r q p d n m Hf [HS HZ] Hr Hq Hap HL; (destruct fuel as [|fuel]; [lia|]); cbn [add_str];
    destruct (readbyte_at m r p Hr) as [R1 R2]; destruct (readbyte m r) as [b r1]; cbn [fst snd length] in *; subst b.
  - change (Z.of_nat 0) with 0 in HZ. rewrite Z.add_0_r in HZ. rewrite HZ. exists m, q. right. split; reflexivity.
  - destruct (HS 0%nat ltac:(lia)) as [S1 S2]. cbn [nth] in *. change (Z.of_nat 0) with 0 in S1. rewrite Z.add_0_r in S1. rewrite S1. replace (c =? 0) with false by lia.
    assert (Hc : isbyte c) by (rewrite <- S1; apply byte_range).
    destruct (written_byte m q d c Hq Hc) as [W1 W2]. destruct (writebyte m q c) as [m1 q1]. cbn [fst snd] in *.
    assert (SAME : forall j, 0 <= j < len s + 1 -> byte m1 (p + 1 + j) = byte m (p + 1 + j)).
    { intros j Hj. apply (proj2 W1). intros i Hi. cbn [length] in Hi. replace i with 0%nat by lia. intros Q. apply (Hap 0 (j + 1)); [lia|lia|]. replace (p + (j + 1)) with (p + 1 + j) by lia. symmetry. exact Q. }
    destruct (IH fuel r1 q1 (p + 1) (d + 1) (u32 (n + 1)) m1) as (m' & q' & C); auto; try lia.
    + split.
      * intros i Hi. rewrite SAME by lia. destruct (HS (S i) ltac:(lia)) as [T1 T2]. cbn [nth] in *. split; [|exact T2]. rewrite <- T1. f_equal. lia.
      * rewrite SAME by lia. rewrite <- HZ. f_equal. lia.
    + intros i j Hi Hj. replace (d + 1 + i) with (d + (i + 1)) by lia. replace (p + 1 + j) with (p + (j + 1)) by lia. apply Hap; lia.
    + destruct C as [(E & W & A)|(-> & E)].
      * exists m', q'. left. rewrite E. split; [|split].
        -- rewrite u32_add_l. do 3 f_equal. lia.
        -- change (c :: s) with ([c] ++ s). apply written_app with m1; [exact W1|exact W|cbn [length]; lia].
        -- eapply at_addr_eq; [|exact A]. lia.
      * exists m1, q1. left. rewrite E. split; [do 3 f_equal; cbn; lia|]. split; [exact W1|exact W2].
Qed.

(* ---------- one argument after the other ---------- *)
Lemma emit_data key key1 key2 : forall items data ds sl steps n data', emit key key1 key2 data items ds sl = Some (steps, n, data') -> exists ext, data' = data ++ ext.
Proof.
  induction items as [|it items IH]; intros data ds sl steps n data' H; [injection H as <- <- <-; exists []; rewrite app_nil_r; reflexivity|].
  assert (PUT : forall s, match emit key key1 key2 data items ds sl with None => None | Some (steps, n, data) => Some (s :: steps, n, data) end = Some (steps, n, data') -> exists ext, data' = data ++ ext).
  { intros s E. destruct (emit key key1 key2 data items ds sl) as [[[st n'] dd]|] eqn:X; [|discriminate]. injection E as <- <- <-. eauto. }
  assert (TXT : forall b, match b, ds with
        | [], _ => emit key key1 key2 data items ds sl
        | _ :: _, [] => None
        | _ :: _, d :: ds =>
            match dbstr_print key key1 key2 data b d with
            | None => None
            | Some (j, data) => match emit key key1 key2 data items ds (sl + len b) with
                | None => None | Some (steps, n, data) => Some (SText j :: steps, n, data) end
            end
        end = Some (steps, n, data') -> exists ext, data' = data ++ ext).
  { intros b E. destruct b as [|c b]; [eauto|]. destruct ds as [|d ds]; [discriminate|]. unfold dbstr_print in E.
    destruct (find_or_add key data (c :: b)) as [off d1] eqn:F. destruct (add_count _ _); [|discriminate].
    destruct (emit key key1 key2 d1 items ds _) as [[[st n'] dd]|] eqn:X; [|discriminate]. injection E as <- <- <-.
    apply find_or_add_ok in F as [[e1 ->] _]; [|discriminate]. apply IH in X as [e2 ->]. exists (e1 ++ e2). rewrite app_assoc. reflexivity. }
  destruct it; cbn [emit] in H; eauto.
Qed.
Definition short (fuel : nat) (texts : list (list Z)) : Prop := Forall (fun t => (length t < fuel)%nat) texts.
Lemma decimal_byte v s : decimal v s -> Forall isbyte s.
Proof. intros (A & _). apply (num_byte _ _ _ A). Qed.
Lemma u32_eq_add a b c : u32 a = u32 b -> u32 (a + c) = u32 (b + c).
Proof. intros H. rewrite <- u32_add_l, H, u32_add_l. reflexivity. Qed.
Section Print.
Variables (key key1 key2 D dst N : Z) (m0 : mem) (final : list Z) (fuel : nat).
Hypotheses (Hkey : isbyte key) (Hkey1 : isbyte key1) (Hkey2 : isbyte key2) (HD : D mod 4 = 0) (HN : N <= 2^32)
  (Hfin : holds m0 D final) (Hap : apart dst N D (len final)).
Definition extends (data : list Z) : Prop := exists rest, final = data ++ rest.
(* what is known after printing the text out *)
Definition at_out (out : list Z) (q : pos) (m : mem) : Prop := written m0 m dst out /\ at_addr q (dst + len out).
Lemma text_step data b d j data' out q m : b <> [] -> Forall isbyte b -> (length b < fuel)%nat ->
  dbstr_print key key1 key2 data b d = Some (j, data') -> extends data' -> at_out out q m -> len out + len b <= N ->
  exists m' q', text_run fuel D key1 key2 j q m = Some (m', q') /\ at_out (out ++ b) q' m'.
Proof.
  intros Hb HF Hfu H [rest Hrest] [W A] HL. unfold dbstr_print in H. destruct (find_or_add key data b) as [off d1] eqn:F. destruct (add_count (len b) (d_add d)) as [a|] eqn:AC; [|discriminate].
  injection H as <- <-. apply find_or_add_ok in F as [_ F]; [|exact Hb]. assert (B0 : 0 < len b) by (destruct b; [congruence|cbn [length]; lia]).
  apply add_count_ok in AC as (A1 & A2 & A3); [|exact B0].
  assert (FOUND : forall i, (i < length b)%nat -> exists k, (k < length final)%nat /\ D + off - Z.of_nat i = D + Z.of_nat k /\ nth k final 0 = Z.lxor (nth i b 0) key).
  { intros i Hi. destruct (F i Hi) as (F1 & F2 & F3). exists (Z.to_nat off - i)%nat. rewrite Hrest, app_length. split; [lia|]. split; [lia|]. rewrite app_nth1 by lia. exact F3. }
  destruct (text_loop_ok key (start_key (junk_key key key1 (d_r1 d)) key1) (start_key (junk_key key key2 (d_r2 d)) key2) a (len b)
              Hkey (start_key_low _ _ _ Hkey Hkey1) (start_key_low _ _ _ Hkey Hkey2) A1 A2 A3
              b 0 fuel (text_pos D off) q (D + off) (dst + len out) m Hfu HF ltac:(lia) ltac:(lia) (text_pos_at D off HD) A) as (m' & q' & E & W' & A').
  - intros i Hi. destruct (FOUND i Hi) as (k & K1 & K2 & K3). rewrite K2, <- K3. rewrite (written_safe m0 m dst out D (len final) N W Hap ltac:(lia)) by lia. apply Hfin, K1.
  - intros i i' Hi Hi'. destruct (FOUND i' Hi') as (k & K1 & K2 & K3). rewrite K2. rewrite <- Z.add_assoc. apply Hap; lia.
  - exists m', q'. unfold text_run. cbn [j_add j_k1 j_k2 j_off]. rewrite Z.mul_0_r in E. split; [exact E|]. split.
    + apply written_app with m; [exact W|exact W'|lia].
    + eapply at_addr_eq; [|exact A']. rewrite app_length. lia.
Qed.
Lemma str_step r p s out q m : at_addr r p -> string_at m0 p s -> apart dst N p (len s + 1) -> (length s < fuel)%nat -> at_out out q m -> len out + len s <= N ->
  exists m' q' n, add_str fuel r q 0 m = Some (m', q', n) /\ u32 n = u32 (len s) /\ at_out (out ++ s) q' m'.
Proof.
  intros Hr HS HA Hfu [W A] HL.
  assert (SAFE : forall j, 0 <= j < len s + 1 -> byte m (p + j) = byte m0 (p + j)) by (intros; apply (written_safe m0 m dst out p (len s + 1) N); auto; lia).
  assert (HS' : string_at m p s) by (destruct HS as [S1 S2]; split; [intros i Hi; rewrite SAFE by lia; auto|rewrite SAFE by lia; exact S2]).
  destruct (add_str_ok s fuel r q p (dst + len out) 0 m Hfu HS' Hr A) as (m' & q' & C); [|lia|].
  - intros i j Hi Hj. rewrite <- Z.add_assoc. apply HA; lia.
  - destruct C as [(E & W' & A')|(-> & E)].
    + exists m', q', (u32 (0 + len s)). split; [exact E|]. split; [apply u32_idem|]. split; [apply written_app with m; [exact W|exact W'|lia]|].
      eapply at_addr_eq; [|exact A']. rewrite app_length. lia.
    + exists m, q, 0. rewrite app_nil_r. split; [exact E|]. split; [reflexivity|]. split; assumption.
Qed.
Lemma chars_step bs out q m : Forall isbyte bs -> at_out out q m -> len out + len bs <= N ->
  at_out (out ++ bs) (snd (write_all bs m q)) (fst (write_all bs m q)).
Proof.
  intros HF [W A] HL. destruct (write_all_ok bs m q (dst + len out) A HF ltac:(lia)) as [W' A']. split; [apply written_app with m; [exact W|exact W'|lia]|].
  eapply at_addr_eq; [|exact A']. rewrite app_length. lia.
Qed.
Lemma steps_ok : forall items data ds sl steps n data' texts out ret q m,
  emit key key1 key2 data items ds sl = Some (steps, n, data') -> extends data' -> u32 ret = ret ->
  Forall2 (item_text m0 dst N) items texts -> short fuel texts -> at_out out q m -> len out + len (concat texts) <= N ->
  exists m' q' ret', run_steps fuel D key1 key2 steps ret q m = Some (m', q', ret') /\ at_out (out ++ concat texts) q' m' /\ u32 ret' = ret' /\ u32 (ret' + n) = u32 (ret + sl + len (concat texts)).
Proof.
  induction items as [|it items IH]; intros data ds sl steps n data' texts out ret q m H Hrest Hret HT HS HO HL.
  - inversion HT; subst. injection H as <- <- <-. cbn [run_steps concat]. exists m, q, ret. rewrite app_nil_r. split; [reflexivity|]. split; [exact HO|]. split; [exact Hret|]. f_equal. cbn. lia.
  - inversion HT as [|? t ? texts' Ht HT']; subst. inversion HS as [|? ? Hs HS']; subst. cbn [concat] in *. rewrite app_length in HL.
    rewrite app_assoc, app_length.
    assert (TXT : forall b, Forall isbyte b -> b = t -> match b, ds with
        | [], _ => emit key key1 key2 data items ds sl
        | _ :: _, [] => None
        | _ :: _, d :: ds =>
            match dbstr_print key key1 key2 data b d with
            | None => None
            | Some (j, data) => match emit key key1 key2 data items ds (sl + len b) with
                | None => None | Some (steps, n, data) => Some (SText j :: steps, n, data) end
            end
        end = Some (steps, n, data') ->
      exists m' q' ret', run_steps fuel D key1 key2 steps ret q m = Some (m', q', ret') /\ at_out ((out ++ t) ++ concat texts') q' m' /\ u32 ret' = ret' /\ u32 (ret' + n) = u32 (ret + sl + Z.of_nat (length t + length (concat texts')))).
    { intros b Fb <- E. destruct b as [|c b'].
      - rewrite app_nil_r. cbn [length Nat.add]. apply (IH data ds sl steps n data' texts'); auto; cbn in HL; lia.
      - set (b := c :: b') in *. destruct ds as [|d ds]; [discriminate|]. destruct (dbstr_print key key1 key2 data b d) as [[j d1]|] eqn:P; [|discriminate].
        destruct (emit key key1 key2 d1 items ds (sl + len b)) as [[[st n'] d2]|] eqn:X; [|discriminate]. injection E as <- <- <-.
        destruct (emit_data _ _ _ _ _ _ _ _ _ _ X) as [ext Ed]. 
        destruct (text_step data b d j d1 out q m) as (m1 & q1 & R & O1); auto; [discriminate|destruct Hrest as [rest Er]; exists (ext ++ rest); rewrite Er, Ed, <- app_assoc; reflexivity|lia|].
        cbn [run_steps]. rewrite R. destruct (IH d1 ds (sl + len b) st n' d2 texts' (out ++ b) ret q1 m1) as (m' & q' & ret' & R' & O' & V & U); auto; [rewrite app_length; lia|].
        exists m', q', ret'. split; [exact R'|]. split; [exact O'|]. split; [exact V|]. rewrite U. f_equal. lia. }
    assert (PUT : forall s, match emit key key1 key2 data items ds sl with None => None | Some (steps, n, data) => Some (s :: steps, n, data) end = Some (steps, n, data') ->
       exists steps', steps = s :: steps' /\ emit key key1 key2 data items ds sl = Some (steps', n, data')).
    { intros s E. destruct (emit key key1 key2 data items ds sl) as [[[st n'] dd]|] eqn:X; [|discriminate]. injection E as <- <- <-. eauto. }
    assert (NEXT : forall steps' r1 q1 m1, emit key key1 key2 data items ds sl = Some (steps', n, data') -> at_out (out ++ t) q1 m1 -> u32 r1 = r1 -> u32 r1 = u32 (ret + len t) ->
       exists m' q' ret', run_steps fuel D key1 key2 steps' r1 q1 m1 = Some (m', q', ret') /\ at_out ((out ++ t) ++ concat texts') q' m' /\ u32 ret' = ret' /\ u32 (ret' + n) = u32 (ret + sl + Z.of_nat (length t + length (concat texts')))).
    { intros steps' r1 q1 m1 E O1 V1 U1. destruct (IH data ds sl steps' n data' texts' (out ++ t) r1 q1 m1) as (m' & q' & ret' & R' & O' & V & U); auto; [rewrite app_length; lia|].
      exists m', q', ret'. split; [exact R'|]. split; [exact O'|]. split; [exact V|]. rewrite U. replace (r1 + sl + len (concat texts')) with (r1 + (sl + len (concat texts'))) by lia. rewrite (u32_eq_add _ _ _ U1). f_equal. lia. }
    inversion Ht as [b Fb|z s Hd|p s HSt HA|e s HSt HA|v s Hv Hh|v s Hv Hd]; subst; cbn [emit] in H.
    + apply (TXT t Fb eq_refl H).
    + assert (PS : decimal (z mod 2^32) (py_str 10 (z mod 2^32))) by (apply (py_str_ok 9); pose proof (Z.mod_pos_bound z (2^32) ltac:(lia)); change (10 ^ Z.of_nat 10) with 10000000000; lia).
      apply (TXT (py_str 10 (z mod 2^32)) (decimal_byte _ _ PS) (decimal_unique _ _ _ PS Hd) H).
    + apply PUT in H as (steps' & -> & E). destruct (str_step _ p t out q m (seek_at p) HSt HA Hs HO ltac:(lia)) as (m1 & q1 & k & R & Uk & O1). cbn [run_steps]. rewrite R.
      apply NEXT; [exact E|exact O1|apply u32_idem|]. rewrite u32_idem, !(Z.add_comm ret). apply u32_eq_add, Uk.
    + apply PUT in H as (steps' & -> & E). assert (AT : at_addr (u32 e, 0) (0x58A364 + 4 * e)).
      { unfold at_addr. cbn [fst snd]. rewrite idx_u32. split; [f_equal|]; Z.div_mod_to_equations; lia. }
      destruct (str_step _ _ t out q m AT HSt HA Hs HO ltac:(lia)) as (m1 & q1 & k & R & Uk & O1). cbn [run_steps]. rewrite R.
      apply NEXT; [exact E|exact O1|apply u32_idem|]. rewrite u32_idem, !(Z.add_comm ret). apply u32_eq_add, Uk.
    + apply PUT in H as (steps' & -> & E). pose proof (hex8_exists v Hv) as (X1 & X2 & X3). destruct Hh as (Y1 & Y2 & Y3).
      pose proof (hex_unique 8 _ _ _ X2 Y2 X1 Y1 X3 Y3) as EQ. cbn [run_steps]. unfold add_ptr. rewrite EQ.
      pose proof (chars_step t out q m (num_byte _ _ _ Y1) HO ltac:(lia)) as O1. destruct (write_all t m q) as [m1 q1]. cbn [fst snd] in O1.
      apply NEXT; [exact E|exact O1|apply u32_idem|]. rewrite u32_idem, Y2. reflexivity.
    + apply PUT in H as (steps' & -> & E). destruct (dw_chars_ok 9 v []) as (s' & X1 & X2); [change (10 ^ Z.of_nat 10) with 10000000000; lia|].
      rewrite app_nil_r in X1. rewrite (decimal_unique _ _ _ X2 Hd) in X1. cbn [run_steps]. unfold add_dw. rewrite X1.
      pose proof (chars_step t out q m (decimal_byte _ _ Hd) HO ltac:(lia)) as O1. destruct (write_all t m q) as [m1 q1]. cbn [fst snd] in O1.
      apply NEXT; [exact E|exact O1|apply u32_idem|]. rewrite u32_idem, u32_add_r. reflexivity.
Qed.
End Print.

(* ---------- f_dbstr_print ---------- *)
(* The texts of the arguments appear one after the other from dst on, with a
   zero byte after them if EOS is set; nothing else changes; the result is the
   address just after the text.  All random choices are covered, and data may
   have been added to the object of obfuscated texts before and after. *)
Theorem C62_print : forall key key1 key2 data items ds steps n data' more D dst m texts fuel (EOS : bool),
  isbyte key -> isbyte key1 -> isbyte key2 ->
  emit key key1 key2 data items ds 0 = Some (steps, n, data') ->
  D mod 4 = 0 -> holds m D (data' ++ more) ->
  let text := concat texts ++ (if EOS then [0] else []) in
  len text <= 2^32 -> apart dst (len text) D (len (data' ++ more)) ->
  Forall2 (item_text m dst (len text)) items texts -> short fuel texts ->
  exists m', run_print fuel D key1 key2 dst steps n EOS m = Some (m', u32 (dst + len (concat texts))) /\ written m m' dst text.
Proof.
  intros key key1 key2 data items ds steps n data' more D dst m texts fuel EOS Hk H1 H2 HE HD Hh text HL HA HT HS.
  assert (O0 : at_out dst m [] (seekoffset dst) m) by (split; [apply written_nil|eapply at_addr_eq; [|apply seek_at]; cbn; lia]).
  assert (LT : len text = len (concat texts) + (if EOS then 1 else 0)) by (unfold text; rewrite app_length; destruct EOS; cbn [length]; lia).
  destruct (steps_ok key key1 key2 D dst (len text) m (data' ++ more) fuel Hk H1 H2 HD HL Hh HA items data ds 0 steps n data' texts [] (u32 dst) (seekoffset dst) m HE (ex_intro _ more eq_refl) (u32_idem dst) HT HS O0) as (m' & q' & ret' & R & O & V & U).
  { cbn [length]. destruct EOS; lia. }
  unfold run_print. rewrite R. cbn [app] in O. destruct O as [W A].
  assert (RET : (if n =? 0 then ret' else u32 (ret' + n)) = u32 (dst + len (concat texts))).
  { rewrite Z.add_0_r, u32_add_l in U. destruct (Z.eqb_spec n 0) as [->|]; [rewrite Z.add_0_r, V in U|]; exact U. }
  rewrite RET. unfold text. destruct EOS.
  - exists (fst (writebyte m' q' 0)). split; [reflexivity|]. destruct (written_byte m' q' (dst + len (concat texts)) 0 A) as [W' _]; [unfold isbyte; lia|].
    apply written_app with m'; [exact W|exact W'|cbn [length]; lia].
  - exists m'. split; [reflexivity|]. rewrite app_nil_r. exact W.
Qed.
(* texts of up to 32768 bytes are always compiled; every text gets one draw *)
Definition texts_of (items : list item) : list (list Z) :=
  flat_map (fun it => match it with IBytes ((_ :: _) as b) => [b] | IInt z => [py_str 10 (z mod 2^32)] | _ => [] end) items.
Theorem C62_compiles : forall key key1 key2 items data ds sl, Forall (fun b => len b <= 32768) (texts_of items) -> (length (texts_of items) <= length ds)%nat ->
  emit key key1 key2 data items ds sl <> None.
Proof.
  intros key key1 key2. induction items as [|it items IH]; intros data ds sl HF HL; [discriminate|].
  assert (PUT : forall s, emit key key1 key2 data items ds sl <> None -> match emit key key1 key2 data items ds sl with None => None | Some (steps, n, data) => Some (s :: steps, n, data) end <> None).
  { intros s E. destruct (emit key key1 key2 data items ds sl) as [[[? ?] ?]|]; [discriminate|congruence]. }
  assert (TXT : forall c b, len (c :: b) <= 32768 -> Forall (fun b => len b <= 32768) (texts_of items) -> (S (length (texts_of items)) <= length ds)%nat ->
     match ds with [] => None | d :: ds => match dbstr_print key key1 key2 data (c :: b) d with
            | None => None
            | Some (j, data) => match emit key key1 key2 data items ds (sl + len (c :: b)) with
                | None => None | Some (steps, n, data) => Some (SText j :: steps, n, data) end
            end end <> None).
  { intros c b Hb HF' HL'. destruct ds as [|d ds]; [cbn in HL'; lia|]. unfold dbstr_print. destruct (find_or_add key data (c :: b)) as [off d1].
    assert (AC : add_count (len (c :: b)) (d_add d) <> None).
    { unfold add_count, randrange. set (l := len (c :: b)) in *. assert (1 <= l) by (unfold l; cbn [length]; lia). clearbody l. destruct (Z.eqb_spec l 1) as [->|N]; [discriminate|].
      assert (X : 0x80000000 / l + 1 < 0x80000000 / (l - 1)); [|destruct (Z.ltb_spec (0x80000000 / l + 1) (0x80000000 / (l - 1))); [discriminate|lia]].
      assert (Y : 0x80000000 / l + 2 <= 0x80000000 / (l - 1)); [|lia]. apply Z.div_le_lower_bound; [lia|].
      pose proof (Z.div_mod 0x80000000 l ltac:(lia)) as E. pose proof (Z.mod_pos_bound 0x80000000 l ltac:(lia)). set (a := 0x80000000 / l) in *. set (w := 0x80000000 mod l) in *. clearbody a w.
      assert (l * a <= 0x80000000) by lia. assert (65536 <= a) by nia. nia. }
    destruct (add_count _ _); [|congruence]. specialize (IH d1 ds (sl + len (c :: b)) HF'). destruct (emit key key1 key2 d1 items ds _) as [[[? ?] ?]|]; [discriminate|]. apply IH. cbn in HL'. lia. }
  destruct it as [b|z|p|e|v|v]; cbn [emit]; unfold texts_of in HF, HL; cbn [flat_map] in HF, HL; fold (texts_of items) in HF, HL; try (apply PUT, IH; assumption).
  - destruct b as [|c b]; [apply IH; assumption|]. inversion HF; subst. apply TXT; [assumption|assumption|exact HL].
  - destruct (py_str 10 (z mod 2^32)) as [|c b] eqn:E; [exfalso|inversion HF; subst; apply TXT; [assumption|assumption|exact HL]].
    assert (PS : decimal (z mod 2^32) (py_str 10 (z mod 2^32))) by (apply (py_str_ok 9); pose proof (Z.mod_pos_bound z (2^32) ltac:(lia)); change (10 ^ Z.of_nat 10) with 10000000000; lia).
    rewrite E in PS. destruct PS as (_ & PS & _). congruence.
Qed.
(* a text of 32897 bytes is not: random.randrange is called with an empty range *)
Theorem C62_long_text_refuted : forall key key1 key2 data b d ds sl items, len b = 32897 -> emit key key1 key2 data (IBytes b :: items) (d :: ds) sl = None.
Proof.
  intros key key1 key2 data b d ds sl items H. cbn [emit]. destruct b as [|c b]; [discriminate|]. unfold dbstr_print. rewrite H. destruct (find_or_add key data (c :: b)). reflexivity.
Qed.
(* every argument that is a number has a text, and only one *)
Theorem C62_numbers_have_texts : forall v, 0 <= v < 2^32 -> (exists s, decimal v s /\ len s <= 10) /\ (exists s, hex8 v s) /\
  (forall s s', decimal v s -> decimal v s' -> s = s') /\ (forall s s', hex8 v s -> hex8 v s' -> s = s').
Proof.
  intros v Hv. split; [|split; [eexists; apply hex8_exists; exact Hv|split]].
  - assert (PS : forall k n, len (py_str k n) <= Z.of_nat k) by (induction k as [|k IH]; intros n; cbn [py_str]; [cbn; lia|]; destruct (n <? 10); [cbn; lia|rewrite app_length; specialize (IH (n / 10)); cbn [length]; lia]).
    exists (py_str 10 v). split; [apply (py_str_ok 9); change (10 ^ Z.of_nat 10) with 10000000000; lia|apply (PS 10%nat)].
  - intros s s'. apply decimal_unique.
  - intros s s' (A & A1 & A2) (B & B1 & B2). apply (hex_unique 8 _ _ v); assumption.
Qed.
(* the functions for one argument *)
Theorem C62_add : forall it s step dst src fuel m, item_text m dst (len s + 1) it s -> len s < 2^32 -> (length s < fuel)%nat ->
  (it = INum src /\ step = SNum src \/ it = IHex src /\ step = SHex src \/ it = IPtr src /\ step = SStr (seekoffset src) \/ it = IEpd src /\ step = SStr (u32 src, 0)) ->
  exists m', f_dbstr_add fuel dst step m = Some (m', u32 (dst + len s)) /\ written m m' dst (s ++ [0]).
Proof.
  intros it s st dst src fuel m HT HL HF HC. unfold f_dbstr_add.
  destruct (C62_print 0 0 0 [] [it] [] [st] 0 [] [] 0 dst m [s] fuel true) as (m' & R & W); try (unfold isbyte; lia).
  - destruct HC as [[-> ->]|[[-> ->]|[[-> ->]|[-> ->]]]]; reflexivity.
  - intros i Hi. cbn in Hi. lia.
  - cbn [concat]. rewrite app_nil_r, app_length. cbn [length]. lia.
  - intros i j Hi Hj. cbn in Hj. lia.
  - cbn [concat]. rewrite app_nil_r, app_length. cbn [length]. rewrite Nat2Z.inj_add. constructor; [exact HT|constructor].
  - constructor; [exact HF|constructor].
  - cbn [concat] in R, W. rewrite app_nil_r in R, W. eauto.
Qed.
Theorem C62_addstr : forall fuel dst src s m, string_at m src s -> apart dst (len s + 1) src (len s + 1) -> len s < 2^32 -> (length s < fuel)%nat ->
  exists m', f_dbstr_addstr fuel dst src m = Some (m', u32 (dst + len s)) /\ written m m' dst (s ++ [0]).
Proof. intros. apply (C62_add (IPtr src) s) with src; auto. constructor; assumption. Qed.
Theorem C62_addstr_epd : forall fuel dst epd s m, string_at m (0x58A364 + 4 * epd) s -> apart dst (len s + 1) (0x58A364 + 4 * epd) (len s + 1) -> len s < 2^32 -> (length s < fuel)%nat ->
  exists m', f_dbstr_addstr_epd fuel dst epd m = Some (m', u32 (dst + len s)) /\ written m m' dst (s ++ [0]).
Proof. intros. apply (C62_add (IEpd epd) s) with epd; auto 6. constructor; assumption. Qed.
Lemma fuel_num fuel dst v m : f_dbstr_add fuel dst (SNum v) m = f_dbstr_add 0 dst (SNum v) m /\ f_dbstr_add fuel dst (SHex v) m = f_dbstr_add 0 dst (SHex v) m.
Proof. split; reflexivity. Qed.
Theorem C62_adddw : forall dst v s m, 0 <= v < 2^32 -> decimal v s ->
  exists m', f_dbstr_adddw dst v m = Some (m', u32 (dst + len s)) /\ written m m' dst (s ++ [0]).
Proof.
  intros dst v s m Hv Hs. destruct (C62_numbers_have_texts v Hv) as ((s0 & D0 & L0) & _). rewrite (decimal_unique _ _ _ D0 Hs) in L0.
  unfold f_dbstr_adddw. rewrite <- (proj1 (fuel_num (S (length s)) dst v m)). apply (C62_add (INum v) s) with v; auto; [constructor; assumption|lia].
Qed.
Theorem C62_addptr : forall dst v s m, 0 <= v < 2^32 -> hex8 v s ->
  exists m', f_dbstr_addptr dst v m = Some (m', u32 (dst + 8)) /\ written m m' dst (s ++ [0]).
Proof.
  intros dst v s m Hv Hs. pose proof Hs as (_ & L & _). unfold f_dbstr_addptr. rewrite <- (proj2 (fuel_num (S (length s)) dst v m)).
  destruct (C62_add (IHex v) s (SHex v) dst v (S (length s)) m) as (m' & R & W); auto; [constructor; assumption|lia|]. rewrite L in R. eauto.
Qed.
(* what is printed is read back by f_parse (C43), except for large numbers *)
Theorem C62_parse_decimal_partial : forall v s, 0 <= v < 2147483640 -> decimal v s -> fst (f_parse s 10) = v.
Proof.
  intros v s Hv (A & B & C). destruct (C43_decimal_partial s 1 s v []) as [P _]; [|left; lia|rewrite P, u32_small by lia; lia].
  apply (mkreading 10 s 1 s v [] [] []); [rewrite app_nil_r; reflexivity|constructor|constructor|exact A|exact I|intros _ ->; congruence].
Qed.
Theorem C62_parse_hex_partial : forall v s, 0 <= v < 0xFFFFFFF0 -> hex8 v s -> fst (f_parse s 16) = v.
Proof.
  intros v s Hv (A & B & C). destruct (C43_radix_partial 16 s 1 s v []) as [P _]; [|lia|lia|intros ->; exact I|change (16 * (4294967295 / 16)) with 0xFFFFFFF0; lia|rewrite P, u32_small by lia; lia].
  apply (mkreading 16 s 1 s v [] [] []); [rewrite app_nil_r; reflexivity|constructor|constructor|exact A|exact I|intros _ ->; cbn in B; lia].
Qed.
Theorem C62_parse_back_refuted : exists v s, 0 <= v < 2^32 /\ decimal v s /\ fst (f_parse s 10) <> v.
Proof. exists 3000000000, (py_str 10 3000000000). split; [lia|]. split; [apply (py_str_ok 9); cbn; lia|vm_compute; discriminate]. Qed.
(* "HP: " 1234 "/" 0xAB of a map with the data of an earlier text; the second
   text is found in the first one *)
Definition ex_items : list item := [IBytes [72; 80; 58; 32]; INum 1234; IBytes [58]; IHex 0xAB; IInt (-1)].
Definition ex_draws : list draw := [mkdraw 5 7 9; mkdraw 1234567 1 2; mkdraw 3 0 0xFFFFFF].
Definition ex_texts : list (list Z) := [[72; 80; 58; 32]; [49; 50; 51; 52]; [58]; [48; 48; 48; 48; 48; 48; 65; 66]; [52; 50; 57; 52; 57; 54; 55; 50; 57; 53]].
Example C62_example : exists steps data',
  emit 0x5A 0x13 0xC7 [1; 2] ex_items ex_draws 0 = Some (steps, 15, data') /\ length data' = 16%nat /\
  forall m dst D, D mod 4 = 0 -> holds m D data' -> apart dst 28 D 16 -> 
  exists m', run_print 12 D 0x13 0xC7 dst steps 15 true m = Some (m', u32 (dst + 27)) /\ written m m' dst (concat ex_texts ++ [0]).
Proof.
  destruct (emit 0x5A 0x13 0xC7 [1; 2] ex_items ex_draws 0) as [[[steps n] data']|] eqn:E; [|exfalso; apply (C62_compiles 0x5A 0x13 0xC7 ex_items [1; 2] ex_draws 0); [repeat constructor; vm_compute; discriminate|vm_compute; lia|exact E]].
  assert (X : option_map (fun x => (snd (fst x), length (snd x))) (emit 0x5A 0x13 0xC7 [1; 2] ex_items ex_draws 0) = Some (15, 16%nat)) by (vm_compute; reflexivity).
  rewrite E in X. cbn [option_map fst snd] in X. injection X as -> L. exists steps, data'. split; [reflexivity|]. split; [exact L|].
  intros m dst D HD HH HA. destruct (C62_print 0x5A 0x13 0xC7 [1; 2] ex_items ex_draws steps 15 data' [] D dst m ex_texts 12 true) as (m' & R & W); try (unfold isbyte; lia); auto.
  - rewrite app_nil_r. exact HH.
  - cbn. lia.
  - rewrite app_nil_r, L. exact HA.
  - assert (D1 : forall k n, 0 <= n < 10 ^ Z.of_nat (S k) -> decimal n (py_str (S k) n)) by apply py_str_ok.
    constructor; [constructor; repeat constructor; unfold isbyte; lia|]. constructor; [constructor; [lia|apply (D1 3%nat); cbn; lia]|].
    constructor; [constructor; repeat constructor; unfold isbyte; lia|]. constructor; [constructor; [lia|apply (hex8_exists 0xAB); lia]|].
    constructor; [constructor; apply (D1 9%nat); vm_compute; split; [discriminate|reflexivity]|constructor].
  - repeat constructor; cbn; lia.
  - eauto.
Qed.
Print Assumptions C62_print. Print Assumptions C62_compiles. Print Assumptions C62_long_text_refuted. Print Assumptions C62_numbers_have_texts.
Print Assumptions C62_addstr. Print Assumptions C62_addstr_epd. Print Assumptions C62_adddw. Print Assumptions C62_addptr.
Print Assumptions C62_parse_decimal_partial. Print Assumptions C62_parse_hex_partial. Print Assumptions C62_parse_back_refuted.
