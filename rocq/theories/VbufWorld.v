(* The variable buffer in memory: every variable trigger of the buffer is the
   trigger [vtrig], variables are separate. Jump buffers likewise. *)
From Coq Require Import ZArith Lia Bool List ZifyBool ZifyNat.
From Verif Require Import Lib Word Machine MachineProofs MachineRefine VarModel VarSpec
  AllocModel PayloadModel PayloadSpec PayloadProofs VbufModel VbufProofs.
Import ListNotations.
Open Scope Z_scope.

(* byte j of a dword *)
Definition byte_of (x : Z) (j : nat) : Z := (x / 256 ^ Z.of_nat j) mod 256.
(* memory holds the object's written bytes; [o] is the EPD index of its first dword *)
Definition image (m : mem) (o : Z) (ops : list wop) : Prop :=
  forall k v, byte_at (all_items ops) k = Some v ->
    byte_of (get m (o + Z.of_nat (k / 4))) (k mod 4) = v.

Lemma dword_of_bytes x b0 b1 b2 b3 : 0 <= x < 2^32 ->
  byte_of x 0 = b0 -> byte_of x 1 = b1 -> byte_of x 2 = b2 -> byte_of x 3 = b3 ->
  x = b0 + 256 * b1 + 65536 * b2 + 16777216 * b3.
Proof.
  unfold byte_of. intros Hx.
  change (256 ^ Z.of_nat 0) with 1. change (256 ^ Z.of_nat 1) with 256.
  change (256 ^ Z.of_nat 2) with 65536. change (256 ^ Z.of_nat 3) with 16777216.
  intros <- <- <- <-. Z.div_mod_to_equations. lia.
Qed.

Lemma image_dword m o ops q b0 b1 b2 b3 : image m o ops ->
  byte_at (all_items ops) (4 * q) = Some b0 -> byte_at (all_items ops) (4 * q + 1) = Some b1 ->
  byte_at (all_items ops) (4 * q + 2) = Some b2 -> byte_at (all_items ops) (4 * q + 3) = Some b3 ->
  get m (o + Z.of_nat q) = b0 + 256 * b1 + 65536 * b2 + 16777216 * b3.
Proof.
  intros Hi H0 H1 H2 H3. apply dword_of_bytes; [apply get_range|..].
  - specialize (Hi _ _ H0). replace (4 * q / 4)%nat with q in Hi by lia.
    replace ((4 * q) mod 4)%nat with 0%nat in Hi by lia. exact Hi.
  - specialize (Hi _ _ H1). replace ((4 * q + 1) / 4)%nat with q in Hi by lia.
    replace ((4 * q + 1) mod 4)%nat with 1%nat in Hi by lia. exact Hi.
  - specialize (Hi _ _ H2). replace ((4 * q + 2) / 4)%nat with q in Hi by lia.
    replace ((4 * q + 2) mod 4)%nat with 2%nat in Hi by lia. exact Hi.
  - specialize (Hi _ _ H3). replace ((4 * q + 3) / 4)%nat with q in Hi by lia.
    replace ((4 * q + 3) mod 4)%nat with 3%nat in Hi by lia. exact Hi.
Qed.

Lemma image_top m o ops q b : image m o ops -> byte_at (all_items ops) (4 * q + 3) = Some b ->
  get m (o + Z.of_nat q) / 2^24 = b.
Proof.
  intros Hi H3. specialize (Hi _ _ H3). replace ((4 * q + 3) / 4)%nat with q in Hi by lia.
  replace ((4 * q + 3) mod 4)%nat with 3%nat in Hi by lia. unfold byte_of in Hi.
  change (256 ^ Z.of_nat 3) with (2^24) in Hi. rewrite Z.mod_small in Hi; auto.
  pose proof (get_range m (o + Z.of_nat q)). Z.div_mod_to_equations. lia.
Qed.

(* variable i of a buffer whose object starts at o *)
Definition vb_var (o : Z) (i : nat) : Z := o + vb_trigger i / 4.
Lemma vb_var_eq o i : vb_var o i = o - 1 + 18 * Z.of_nat i.
Proof. unfold vb_var, vb_trigger. Z.div_mod_to_equations. lia. Qed.

(* the constant cells of the buffer *)
Definition vb_prot (o : Z) (n : nat) (a : Z) : bool :=
  existsb (fun i => existsb (fun c => a =? idx (vb_var o i + c)) [5; 89; 96; 594]) (seq 0 n).

Lemma vb_prot_true o n i c : (i < n)%nat -> In c [5; 89; 96; 594] -> vb_prot o n (idx (vb_var o i + c)) = true.
Proof.
  intros Hi Hc. apply existsb_exists. exists i. split; [apply in_seq; lia|].
  apply existsb_exists. exists c. split; auto. apply Z.eqb_refl.
Qed.

Lemma le_bytes_sum z : forall b0 b1 b2 b3, le_bytes 4 z = [b0; b1; b2; b3] ->
  b0 + 256 * b1 + 65536 * b2 + 16777216 * b3 = u32 z.
Proof.
  intros b0 b1 b2 b3 H. cbn [le_bytes] in H. injection H as <- <- <- <-. unfold u32. Z.div_mod_to_equations. lia.
Qed.

Section VB.
Variable o : Z.
Variable vals : list ival.
Let n := length vals.
Hypothesis Hn : 18 * Z.of_nat n + 700 < 2^30.

Lemma idx_inj a b : idx a = idx b -> - 2^30 < a - b < 2^30 -> a = b.
Proof. unfold idx. intros H Hr. pose proof (Z.div_mod a (2^30)). pose proof (Z.div_mod b (2^30)). nia. Qed.

Lemma vb_sep i j f g : (i < n)%nat -> (j < n)%nat ->
  idx (vc (vb_var o i) f) = idx (vc (vb_var o j) g) -> i = j /\ f = g.
Proof.
  intros Hi Hj H. apply idx_inj in H.
  - unfold vc in H. rewrite !vb_var_eq in H. destruct f, g; cbn [foff] in H; split; try reflexivity; lia.
  - unfold vc. rewrite !vb_var_eq. destruct f, g; cbn [foff]; lia.
Qed.

Lemma vb_prot_false i f : (i < n)%nat -> vb_prot o n (idx (vc (vb_var o i) f)) = false.
Proof.
  intros Hi. destruct (vb_prot o n (idx (vc (vb_var o i) f))) eqn:E; auto. exfalso.
  unfold vb_prot in E. apply existsb_exists in E. destruct E as (j & Hj & E). apply in_seq in Hj.
  apply existsb_exists in E. destruct E as (c & Hc & E). apply Z.eqb_eq in E. apply idx_inj in E.
  - unfold vc in E. rewrite !vb_var_eq in E. destruct f; cbn [foff In] in *; lia.
  - unfold vc. rewrite !vb_var_eq. destruct f; cbn [foff In] in *; lia.
Qed.

Variable m0 : mem.
Hypothesis Him : image m0 o (vb_ops vals).

(* a dword inside block i at dword offset d *)
Lemma vb_dword i d : (i < n)%nat -> (d < 18)%nat ->
  let blk := vb_block (ival_val (nth i vals (VInt 0))) in
  get m0 (o + 81 + 18 * Z.of_nat i + Z.of_nat d) =
  nth (4*d) blk 0 + 256 * nth (4*d+1) blk 0 + 65536 * nth (4*d+2) blk 0 + 16777216 * nth (4*d+3) blk 0.
Proof.
  intros Hi Hd blk.
  replace (o + 81 + 18 * Z.of_nat i + Z.of_nat d) with (o + Z.of_nat (81 + 18 * i + d)) by lia.
  assert (Hb : forall j, (j < 4)%nat ->
    byte_at (all_items (vb_ops vals)) (4 * (81 + 18 * i + d) + j) = Some (nth (4 * d + j) blk 0)).
  { intros j Hj. replace (4 * (81 + 18 * i + d) + j)%nat with (324 + i * 72 + (4 * d + j))%nat by lia.
    rewrite vb_bytes_block by (unfold n in Hi; lia). apply nth_error_nth'. unfold blk. rewrite vb_block_length. lia. }
  apply (image_dword m0 o (vb_ops vals)); [exact Him|..].
  - pose proof (Hb 0%nat). replace (4 * (81 + 18 * i + d) + 0)%nat with (4 * (81 + 18 * i + d))%nat in H by lia.
    replace (4 * d + 0)%nat with (4 * d)%nat in H by lia. apply H. lia.
  - apply Hb. lia.
  - apply Hb. lia.
  - apply Hb. lia.
Qed.

Lemma vb_initial i : (i < n)%nat -> let v := vb_var o i in
  get m0 (vc v FMask) = 0xFFFFFFFF /\ get m0 (vc v FDest) = 0 /\
  get m0 (vc v FVal) = u32 (ival_val (nth i vals (VInt 0))) /\
  get m0 (vc v FMod) = w6 SetTo /\ get m0 (vc v FNext) = 0 /\
  get m0 (v + 89) = 0x43530000 /\ get m0 (v + 96) = 0.
Proof.
  intros Hi v. unfold v.
  assert (E : forall c, vb_var o i + (82 + c) = o + 81 + 18 * Z.of_nat i + c) by (intros; rewrite vb_var_eq; lia).
  unfold vc, foff.
  pose proof (E 0 : vb_var o i + 82 = _) as E0. pose proof (E 4 : vb_var o i + 86 = _) as E4.
  pose proof (E 5 : vb_var o i + 87 = _) as E5. pose proof (E 6 : vb_var o i + 88 = _) as E6.
  pose proof (E 7 : vb_var o i + 89 = _) as E7. pose proof (E 14 : vb_var o i + 96 = _) as E14.
  rewrite E0, E4, E5, E6, E7, E14.
  pose proof (vb_dword i 0 Hi ltac:(lia)) as D0. pose proof (vb_dword i 4 Hi ltac:(lia)) as D4.
  pose proof (vb_dword i 5 Hi ltac:(lia)) as D5. pose proof (vb_dword i 6 Hi ltac:(lia)) as D6.
  pose proof (vb_dword i 7 Hi ltac:(lia)) as D7. pose proof (vb_dword i 14 Hi ltac:(lia)) as D14.
  cbn zeta in *. change (Z.of_nat 0) with 0 in D0. change (Z.of_nat 4) with 4 in D4. change (Z.of_nat 5) with 5 in D5.
  change (Z.of_nat 6) with 6 in D6. change (Z.of_nat 7) with 7 in D7. change (Z.of_nat 14) with 14 in D14.
  rewrite D0, D4, D5, D6, D7, D14.
  split; [reflexivity|]. split; [reflexivity|].
  split. { apply le_bytes_sum. reflexivity. }
  split; [reflexivity|]. split; [|split; reflexivity].
  destruct (Nat.ltb_spec i 5) as [H5|H5].
  - replace (vb_var o i + 1) with (o + Z.of_nat (18 * i)) by (rewrite vb_var_eq; lia).
    assert (Hb : forall j, (j < 4)%nat -> byte_at (all_items (vb_ops vals)) (4 * (18 * i) + j) = Some 0).
    { intros j Hj. replace (4 * (18 * i) + j)%nat with (i * 72 + j)%nat by lia. rewrite vb_bytes_head by lia.
      destruct (Nat.ltb_spec j 4); [reflexivity|lia]. }
    rewrite (image_dword m0 o (vb_ops vals) (18 * i) 0 0 0 0); [reflexivity|exact Him|..].
    + pose proof (Hb 0%nat) as H. replace (4 * (18 * i) + 0)%nat with (4 * (18 * i))%nat in H by lia. apply H. lia.
    + apply Hb. lia.
    + apply Hb. lia.
    + apply Hb. lia.
  - replace (vb_var o i + 1) with (o + 81 + 18 * Z.of_nat (i - 5) + Z.of_nat 9) by (rewrite vb_var_eq; lia).
    rewrite vb_dword by lia. reflexivity.
Qed.

Lemma vb_nocond i : (i < n)%nat -> get m0 (vb_var o i + 5) / 2^24 = 0.
Proof.
  intros Hi. destruct (Nat.ltb_spec i 5) as [H5|H5].
  - replace (vb_var o i + 5) with (o + Z.of_nat (18 * i + 4)) by (rewrite vb_var_eq; lia).
    apply (image_top m0 o (vb_ops vals)); auto.
    replace (4 * (18 * i + 4) + 3)%nat with (i * 72 + 19)%nat by lia. rewrite vb_bytes_head by lia. reflexivity.
  - replace (vb_var o i + 5) with (o + 81 + 18 * Z.of_nat (i - 5) + Z.of_nat 13) by (rewrite vb_var_eq; lia).
    rewrite vb_dword by lia. reflexivity.
Qed.

Lemma vb_flags i : (i < n)%nat -> get m0 (vb_var o i + 594) = 4.
Proof.
  intros Hi. destruct (Nat.ltb_spec (i + 28) n) as [H5|H5].
  - replace (vb_var o i + 594) with (o + 81 + 18 * Z.of_nat (i + 28) + Z.of_nat 8) by (rewrite vb_var_eq; lia).
    rewrite vb_dword by lia. reflexivity.
  - replace (vb_var o i + 594) with (o + Z.of_nat (81 + 18 * (i + 28) + 8)) by (rewrite vb_var_eq; lia).
    assert (Hb : forall j, (j < 4)%nat ->
      byte_at (all_items (vb_ops vals)) (4 * (81 + 18 * (i + 28) + 8) + j) = nth_error [4;0;0;0] j).
    { intros j Hj. rewrite <- (vb_bytes_tail vals (i + 28 - n) j) by (unfold n in *; lia). f_equal. unfold n in *. lia. }
    rewrite (image_dword m0 o (vb_ops vals) (81 + 18 * (i + 28) + 8) 4 0 0 0); [reflexivity|exact Him|..].
    + pose proof (Hb 0%nat) as H.
      replace (4 * (81 + 18 * (i + 28) + 8) + 0)%nat with (4 * (81 + 18 * (i + 28) + 8))%nat in H by lia. apply H. lia.
    + apply Hb. lia.
    + apply Hb. lia.
    + apply Hb. lia.
Qed.

Lemma raw_acts_split b : t_acts (raw_trig b) = raw_act b 0 :: raw_act b 1 :: map (raw_act b) (map Z.of_nat (seq 2 62)).
Proof. reflexivity. Qed.
Lemma raw_conds_split b : t_conds (raw_trig b) = raw_cond b 0 :: map (raw_cond b) (map Z.of_nat (seq 1 15)).
Proof. reflexivity. Qed.

Lemma vb_matches i : (i < n)%nat -> trig_matches (vb_prot o n) m0 (vb_var o i) (vtrig (vb_var o i)).
Proof.
  intros Hi. destruct (vb_initial i Hi) as (_ & _ & _ & _ & _ & H89 & H96). set (v := vb_var o i) in *.
  assert (Hp : forall c, In c [5; 89; 96; 594] -> vb_prot o n (idx (v + c)) = true).
  { intros c Hc. apply vb_prot_true; auto. }
  unfold trig_matches. rewrite raw_acts_split, raw_conds_split.
  split; [|split; [|split]].
  - cbn [vtrig t_conds conds_match]. exists (v + 5). unfold raw_cond. cbn [c_w3].
    split; [f_equal; lia|]. split; [apply Hp; cbn; auto|]. apply vb_nocond. exact Hi.
  - cbn [vtrig t_acts acts_match]. split.
    + unfold act_matches, raw_act. cbn [a_mask a_dest a_val a_w6 a_w7 op_matches]. unfold vc, foff.
      split; [f_equal; lia|]. split; [f_equal; lia|]. split; [f_equal; lia|]. split; [f_equal; lia|].
      replace (v + 82 + 8 * 0 + 7) with (v + 89) by lia. split; [apply Hp; cbn; auto|]. rewrite H89. reflexivity.
    + exists (v + 96). unfold raw_act. cbn [a_w6]. split; [f_equal; lia|]. split; [apply Hp; cbn; auto|].
      rewrite H96. reflexivity.
  - cbn [raw_trig vtrig t_next op_matches]. unfold vc, foff. reflexivity.
  - cbn [raw_trig vtrig t_flags op_matches]. split; [apply Hp; cbn; auto|]. exact (vb_flags i Hi).
Qed.
End VB.

(* a world made of one variable buffer *)
Definition vb_vars (o : Z) (n : nat) : list Z := map (vb_var o) (seq 0 n).

Lemma vb_world_ok o n P prot :
  27 <= o -> o + 18 * Z.of_nat n + 700 < 2^30 ->
  (forall i, (i < n)%nat -> P (pa (vb_var o i)) = Some (vtrig (vb_var o i))) ->
  (forall i f, (i < n)%nat -> prot (idx (vc (vb_var o i) f)) = false) ->
  world_ok (mkworld P prot (vb_vars o n)).
Proof.
  intros Ho Hn HP Hprot.
  assert (Hin : forall v, In v (vb_vars o n) -> exists i, (i < n)%nat /\ v = vb_var o i).
  { intros v Hv. apply in_map_iff in Hv. destruct Hv as (i & <- & Hi). apply in_seq in Hi. exists i. split; auto; lia. }
  constructor; cbn [W_P W_prot W_vars].
  - intros v Hv. destruct (Hin v Hv) as (i & Hi & ->). auto.
  - intros v u f g Hv Hu H. destruct (Hin v Hv) as (i & Hi & ->). destruct (Hin u Hu) as (j & Hj & ->).
    assert (Hlen : length (repeat (VInt 0) n) = n) by apply repeat_length.
    destruct (vb_sep o (repeat (VInt 0) n)) with (i := i) (j := j) (f := f) (g := g) as [-> ->]; rewrite ?Hlen; auto; lia.
  - intros v f Hv. destruct (Hin v Hv) as (i & Hi & ->). unfold plain.
    assert (27 <= vc (vb_var o i) f < 2^30).
    { unfold vc. rewrite vb_var_eq. destruct f; cbn [foff]; lia. }
    rewrite u32_small by lia. unfold special. lia.
  - intros v f Hv. destruct (Hin v Hv) as (i & Hi & ->). auto.
Qed.

(* ---------- jump triggers ---------- *)
Definition jtrig (p : Z) : trig := mktrig [] [] (Imm p) (Imm 8).
Definition jb_var (o : Z) (i : nat) : Z := o + jb_trigger i / 4.
Lemma jb_var_eq o i : jb_var o i = o - 1 + 5 * Z.of_nat i.
Proof. unfold jb_var, jb_trigger. Z.div_mod_to_equations. lia. Qed.
Definition jb_prot (o : Z) (n : nat) (a : Z) : bool :=
  existsb (fun i => existsb (fun c => a =? idx (jb_var o i + c)) [1; 5; 88; 594]) (seq 0 n).

Section JB.
Variable o : Z.
Variable ptrs : list Z.
Variable m0 : mem.
Hypothesis Him : image m0 o (jb_ops ptrs).
Let n := length ptrs.

Lemma jb_next i : (i < n)%nat -> get m0 (jb_var o i + 1) = u32 (nth i ptrs 0).
Proof.
  intros Hi. replace (jb_var o i + 1) with (o + Z.of_nat (5 * i)) by (rewrite jb_var_eq; lia).
  set (p := nth i ptrs 0).
  assert (Hb : forall j, (j < 4)%nat -> byte_at (all_items (jb_ops ptrs)) (4 * (5 * i) + j) = nth_error (le_bytes 4 p) j).
  { intros j Hj. replace (4 * (5 * i) + j)%nat with (i * 20 + j)%nat by lia.
    rewrite jb_byte_block by (unfold n in Hi; lia). rewrite jb_block_nth by auto. fold p.
    destruct (i <? 17)%nat; [|destruct (i <? 118)%nat]; do 4 (destruct j as [|j]; [reflexivity|]); lia. }
  rewrite (image_dword m0 o (jb_ops ptrs) (5 * i) (p mod 256) (p / 256 mod 256) (p / 256 / 256 mod 256)
             (p / 256 / 256 / 256 mod 256)).
  - fold p; apply (le_bytes_sum p). reflexivity.
  - exact Him.
  - pose proof (Hb 0%nat ltac:(lia)) as H. replace (4 * (5 * i) + 0)%nat with (4 * (5 * i))%nat in H by lia. exact H.
  - exact (Hb 1%nat ltac:(lia)).
  - exact (Hb 2%nat ltac:(lia)).
  - exact (Hb 3%nat ltac:(lia)).
Qed.

Lemma jb_nocond i : (i < n)%nat -> get m0 (jb_var o i + 5) / 2^24 = 0.
Proof.
  intros Hi. replace (jb_var o i + 5) with (o + Z.of_nat (5 * i + 4)) by (rewrite jb_var_eq; lia).
  apply (image_top m0 o (jb_ops ptrs)); [exact Him|].
  replace (4 * (5 * i + 4) + 3)%nat with (i * 20 + 19)%nat by lia. rewrite jb_byte_block by (unfold n in Hi; lia).
  rewrite jb_block_nth by auto. destruct (i <? 17)%nat; [|destruct (i <? 118)%nat]; reflexivity.
Qed.

Lemma jb_noact i : (i < n)%nat -> get m0 (jb_var o i + 88) = 0.
Proof.
  intros Hi. replace (jb_var o i + 88) with (o + Z.of_nat (5 * i + 87)) by (rewrite jb_var_eq; lia).
  assert (Hb : forall j, (j < 4)%nat -> byte_at (all_items (jb_ops ptrs)) (4 * (5 * i + 87) + j) = Some 0).
  { intros j Hj. replace (4 * (5 * i + 87) + j)%nat with ((i + 17) * 20 + (8 + j))%nat by lia.
    destruct (Nat.ltb_spec (i + 17) n) as [H|H]; unfold n in *.
    - rewrite jb_byte_block by lia. rewrite jb_block_nth by lia.
      destruct (Nat.ltb_spec (i + 17) 17); [lia|]. destruct (i + 17 <? 118)%nat; do 4 (destruct j as [|j]; [reflexivity|]); lia.
    - replace ((i + 17) * 20 + (8 + j))%nat with ((length ptrs + (i + 17 - length ptrs)) * 20 + (8 + j))%nat by lia.
      rewrite jb_byte_tail by lia. apply jb_tail_act; lia. }
  rewrite (image_dword m0 o (jb_ops ptrs) (5 * i + 87) 0 0 0 0); [reflexivity|exact Him|..].
  - pose proof (Hb 0%nat ltac:(lia)) as H. replace (4 * (5 * i + 87) + 0)%nat with (4 * (5 * i + 87))%nat in H by lia. exact H.
  - exact (Hb 1%nat ltac:(lia)).
  - exact (Hb 2%nat ltac:(lia)).
  - exact (Hb 3%nat ltac:(lia)).
Qed.

Lemma jb_flags i : (i < n)%nat -> get m0 (jb_var o i + 594) = 8.
Proof.
  intros Hi. replace (jb_var o i + 594) with (o + Z.of_nat (5 * i + 593)) by (rewrite jb_var_eq; lia).
  assert (Hb : forall j, (j < 4)%nat -> byte_at (all_items (jb_ops ptrs)) (4 * (5 * i + 593) + j) = nth_error [8;0;0;0] j).
  { intros j Hj. replace (4 * (5 * i + 593) + j)%nat with ((i + 118) * 20 + (12 + j))%nat by lia.
    destruct (Nat.ltb_spec (i + 118) n) as [H|H]; unfold n in *.
    - rewrite jb_byte_block by lia. rewrite jb_block_nth by lia.
      destruct (Nat.ltb_spec (i + 118) 17); [lia|]. destruct (Nat.ltb_spec (i + 118) 118); [lia|].
      do 4 (destruct j as [|j]; [reflexivity|]); lia.
    - replace ((i + 118) * 20 + (12 + j))%nat with ((length ptrs + (i + 118 - length ptrs)) * 20 + (12 + j))%nat by lia.
      rewrite jb_byte_tail by lia. apply jb_tail_flags; lia. }
  rewrite (image_dword m0 o (jb_ops ptrs) (5 * i + 593) 8 0 0 0); [reflexivity|exact Him|..].
  - pose proof (Hb 0%nat ltac:(lia)) as H. replace (4 * (5 * i + 593) + 0)%nat with (4 * (5 * i + 593))%nat in H by lia. exact H.
  - exact (Hb 1%nat ltac:(lia)).
  - exact (Hb 2%nat ltac:(lia)).
  - exact (Hb 3%nat ltac:(lia)).
Qed.

Lemma jb_matches i : (i < n)%nat -> trig_matches (jb_prot o n) m0 (jb_var o i) (jtrig (nth i ptrs 0)).
Proof.
  intros Hi. pose proof (jb_nocond i Hi) as HC. pose proof (jb_noact i Hi) as HA.
  pose proof (jb_flags i Hi) as HF. pose proof (jb_next i Hi) as HN.
  set (v := jb_var o i) in *.
  assert (Hp : forall c, In c [1; 5; 88; 594] -> jb_prot o n (idx (v + c)) = true).
  { intros c Hc. apply existsb_exists. exists i. split; [apply in_seq; lia|].
    apply existsb_exists. exists c. split; auto. apply Z.eqb_refl. }
  unfold trig_matches. rewrite raw_acts_split, raw_conds_split. cbn [jtrig t_conds t_acts t_next t_flags].
  split; [|split; [|split]].
  - cbn [conds_match]. exists (v + 5). unfold raw_cond. cbn [c_w3].
    split; [f_equal; lia|]. split; [apply Hp; cbn; auto|exact HC].
  - cbn [acts_match]. exists (v + 88). unfold raw_act. cbn [a_w6].
    split; [f_equal; lia|]. split; [apply Hp; cbn; auto|]. rewrite HA. reflexivity.
  - cbn [raw_trig t_next op_matches]. split; [apply Hp; cbn; auto|exact HN].
  - cbn [raw_trig t_flags op_matches]. split; [apply Hp; cbn; auto|exact HF].
Qed.
End JB.

(* a jump trigger just continues at its target *)
Lemma jtrig_step P prot pc p m : P pc = Some (jtrig p) -> steps P prot (pc, m) (u32 p, m).
Proof.
  intros HP. eapply steps_cons; [|apply steps_refl].
  assert (E : exec_trig m (jtrig p) = m) by reflexivity.
  pose proof (step_intro P prot pc m (jtrig p) HP) as H. rewrite E in H. apply H.
  intros Hf. discriminate.
Qed.
