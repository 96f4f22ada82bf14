(* C81: StringBuffer. *)
From Coq Require Import ZArith Lia List Bool ZifyBool ZifyNat.
From Verif Require Import Word Machine MachineProofs VarModel ReadModel BwModel PropBw BlkModel PropBlk PropMem ParseModel PropParse TextModel PropText CpTextModel PropCpText SbufModel.
Import ListNotations.
Open Scope Z_scope.

(* ---------- specification ---------- *)
(* the arguments have these texts when they are printed from the cell e on (the hypotheses of C63_print) *)
Definition printable (fuel : nat) (D key3 key4 : Z) (steps : list cstep) (e : Z) (m : mem) (texts : list (list Z)) : Prop :=
  isbyte key3 /\ isbyte key4 /\ D mod 4 = 0 /\ len (shown_text texts) < 2^32 - 64 /\ short fuel texts /\
  exists key data items ds data' more, isbyte key /\ cemit key key3 key4 data items ds = Some (steps, data') /\ holds m D (data' ++ more) /\
    apart (cell_addr e) (len (shown_text texts) + 4) D (len (data' ++ more)) /\
    Forall2 (citem_text m (cell_addr e) (len (shown_text texts) + 4)) items texts.
Lemma get_same m a b : u32 a = u32 b -> get m a = get m b.
Proof.
  intros Q. assert (X : forall x, idx (u32 x) = idx x).
  { intros x. unfold idx, u32. change (2 ^ 32) with (2 ^ 30 * 4). rewrite Z.rem_mul_r by lia. rewrite Z.mul_comm, Z.mod_add by lia. apply Z.mod_mod. lia. }
  unfold get. rewrite <- (X a), <- (X b), Q. reflexivity.
Qed.
Lemma print_ok fuel D k3 k4 steps e m texts EOS : printable fuel D k3 k4 steps e m texts ->
  exists e' m', f_cpstr_print fuel D k3 k4 steps EOS (cw_init, e, m) = Some (cw_init, e', m') /\
    u32 e' = u32 (e + len (shown_text texts) / 4) /\ len (shown_text texts) mod 4 = 0 /\ shown m m' (cell_addr e) (shown_text texts) /\ (EOS = true -> get m' e' = 0).
Proof. intros (H3 & H4 & HD & HL & HS & key & data & items & ds & data' & more & HK & HE & HH & HA & HF). eapply C63_print; eauto. Qed.

(* C81: append writes at the position and leaves the position after the text, at a 0 *)
Theorem C81_append fuel D k3 k4 steps user s texts : sb_cp s = user -> printable fuel D k3 k4 steps (sb_pos s) (sb_m s) texts ->
  exists s', append fuel D k3 k4 steps user s = Some s' /\ sb_cp s' = user /\ u32 (sb_pos s') = u32 (sb_pos s + len (shown_text texts) / 4) /\
    shown (sb_m s) (sb_m s') (cell_addr (sb_pos s)) (shown_text texts) /\ get (sb_m s') (sb_pos s') = 0.
Proof.
  intros HC HP. destruct (print_ok _ _ _ _ _ _ _ _ true HP) as (e' & m' & R & U & _ & S & G). unfold append, cpblock. rewrite HC, Z.eqb_refl, R. eexists. split; [reflexivity|]. cbn [sb_cp sb_pos sb_m]. auto.
Qed.
Print Assumptions C81_append.
(* C81: insert writes at the cell epd + index *)
Theorem C81_insert fuel D k3 k4 steps user epd index s texts : sb_cp s = user -> printable fuel D k3 k4 steps (u32 (epd + index)) (sb_m s) texts ->
  exists s', insert fuel D k3 k4 steps user epd index s = Some s' /\ sb_cp s' = user /\ u32 (sb_pos s') = u32 (epd + index + len (shown_text texts) / 4) /\
    len (shown_text texts) mod 4 = 0 /\ shown (sb_m s) (sb_m s') (cell_addr (epd + index)) (shown_text texts).
Proof.
  intros HC HP. destruct (print_ok _ _ _ _ _ _ _ _ false HP) as (e' & m' & R & U & M & S & _). unfold insert, cpblock. rewrite HC, Z.eqb_refl, R. eexists. split; [reflexivity|]. cbn [sb_cp sb_pos sb_m]. split; [reflexivity|]. split; [rewrite U; apply u32_add_l|]. split; [exact M|].
  eapply shown_cong; [|exact S]. apply cell_cong, u32_idem.
Qed.
Print Assumptions C81_insert.
(* C81: what is appended after an insert follows the inserted text *)
Theorem C81_insert_append fuel D k3 k4 steps fuel2 D2 steps2 user epd index s s1 texts texts2 : sb_cp s = user -> printable fuel D k3 k4 steps (u32 (epd + index)) (sb_m s) texts ->
  insert fuel D k3 k4 steps user epd index s = Some s1 -> printable fuel2 D2 k3 k4 steps2 (sb_pos s1) (sb_m s1) texts2 ->
  len (shown_text texts) + len (shown_text texts2) < 2^32 - 64 ->
  exists s2, append fuel2 D2 k3 k4 steps2 user s1 = Some s2 /\
    shown (sb_m s) (sb_m s2) (cell_addr (epd + index)) (shown_text texts ++ shown_text texts2) /\ get (sb_m s2) (epd + index + (len (shown_text texts) + len (shown_text texts2)) / 4) = 0 /\ sb_cp s2 = user.
Proof.
  intros HC HP HI HP2 HL. destruct (C81_insert _ _ _ _ _ _ _ _ _ _ HC HP) as (s1' & E1 & C1 & U1 & M1 & S1). assert (s1' = s1) by congruence. subst s1'.
  destruct (C81_append _ _ _ _ _ user s1 _ C1 HP2) as (s2 & E2 & C2 & U2 & S2 & G2). exists s2. split; [exact E2|]. split; [|split; [|exact C2]].
  - eapply shown_app; [exact S1| |lia]. eapply shown_cong; [|exact S2]. rewrite (cell_cong _ _ U1), (cell_add (epd + index)). f_equal. pose proof (Z.div_mod (len (shown_text texts)) 4 ltac:(lia)). lia.
  - rewrite <- G2. apply get_same. rewrite U2. rewrite (u32_eq_add _ _ (len (shown_text texts2) / 4) U1). rewrite <- (Z.add_assoc (epd + index)). revert M1. generalize (len (shown_text texts)), (len (shown_text texts2)). clear. intros x y M1. f_equal. f_equal. Z.div_mod_to_equations. lia.
Qed.
Print Assumptions C81_insert_append.
(* C81: print leaves the text at the start of the buffer, ended by a 0; the position stays *)
Theorem C81_print fuel D k3 k4 steps user epd s texts : sb_cp s = user -> printable fuel D k3 k4 steps epd (sb_m s) texts ->
  exists s', print fuel D k3 k4 steps user epd s = Some s' /\ sb_cp s' = user /\ sb_pos s' = sb_pos s /\
    shown (sb_m s) (sb_m s') (cell_addr epd) (shown_text texts) /\ get (sb_m s') (epd + len (shown_text texts) / 4) = 0.
Proof.
  intros HC HP. destruct (print_ok _ _ _ _ _ _ _ _ true HP) as (e' & m' & R & U & M & S & G). unfold print, cpblock. rewrite HC, Z.eqb_refl. unfold f_cpstr_print in *.
  destruct (crun fuel D k3 k4 steps (cw_init, epd, sb_m s)) as [[[c e] m]|]; [|discriminate]. assert (e = e' /\ upd m e 0 = m') as [-> ->] by (split; congruence).
  eexists. split; [reflexivity|]. cbn [sb_cp sb_pos sb_m]. split; [reflexivity|]. split; [reflexivity|]. split; [exact S|]. rewrite <- (G eq_refl). apply get_same. symmetry. exact U.
Qed.
Print Assumptions C81_print.
(* C81: nothing happens when the current player is not the local one *)
Theorem C81_other fuel D k3 k4 steps user epd i n s : sb_cp s <> user ->
  append fuel D k3 k4 steps user s = Some s /\ insert fuel D k3 k4 steps user epd i s = Some s /\ print fuel D k3 k4 steps user epd s = Some s /\ delete user epd i n s = Some s.
Proof. intros H. unfold append, insert, print, delete, cpblock. replace (sb_cp s =? user) with false by lia. auto. Qed.
Print Assumptions C81_other.
(* C81: delete fills the cells with '\r', changes no others, and sets the position to the first of them *)
Lemma del_ok : forall n e m, Z.of_nat n <= 2^30 ->
  (forall i, (i < n)%nat -> get (del_cells n e m) (e + Z.of_nat i) = 0x0D0D0D0D) /\ (forall a, (forall i, (i < n)%nat -> idx a <> idx (e + Z.of_nat i)) -> get (del_cells n e m) a = get m a).
Proof.
  assert (IU : forall x k, idx (u32 x + k) = idx (x + k)) by (intros x k; unfold idx, u32; Z.div_mod_to_equations; lia).
  assert (GI : forall m a b, idx a = idx b -> get m a = get m b) by (intros m a b E; unfold get; rewrite E; reflexivity).
  induction n as [|n IH]; intros e m Hn; cbn [del_cells].
  - split; [lia|reflexivity].
  - destruct (IH (u32 (e + 1)) (upd m e 0x0D0D0D0D) ltac:(lia)) as (A & B). split.
    + intros [|i] Hi.
      * rewrite B. { rewrite (GI _ (e + Z.of_nat 0) e) by (f_equal; lia). apply get_upd_eq. }
        intros i Hi'. rewrite IU. unfold idx. Z.div_mod_to_equations. lia.
      * etransitivity; [|exact (A i ltac:(lia))]. apply GI. rewrite IU. f_equal. lia.
    + intros a Ha. rewrite B; [apply get_upd_ne'; specialize (Ha 0%nat ltac:(lia)); rewrite Z.add_0_r in Ha; exact Ha|].
      intros i Hi. rewrite IU. specialize (Ha (S i) ltac:(lia)). intros Q. apply Ha. rewrite Q. f_equal. lia.
Qed.
Theorem C81_delete user epd start n s : sb_cp s = user -> Z.of_nat n <= 2^30 ->
  exists s', delete user epd start n s = Some s' /\ sb_cp s' = user /\ sb_pos s' = u32 (epd + start) /\
    (forall i, (i < n)%nat -> get (sb_m s') (epd + start + Z.of_nat i) = 0x0D0D0D0D) /\
    (forall a, (forall i, (i < n)%nat -> idx a <> idx (epd + start + Z.of_nat i)) -> get (sb_m s') a = get (sb_m s) a).
Proof.
  intros HC HN. unfold delete, cpblock. rewrite HC, Z.eqb_refl. eexists. split; [reflexivity|]. cbn [sb_cp sb_pos sb_m]. split; [reflexivity|]. split; [reflexivity|].
  assert (IU : forall x k, idx (u32 x + k) = idx (x + k)) by (intros x k; unfold idx, u32; Z.div_mod_to_equations; lia).
  destruct (del_ok n (u32 (epd + start)) (sb_m s) HN) as (A & B). split.
  - intros i Hi. etransitivity; [|exact (A i Hi)]. unfold get. rewrite IU. reflexivity.
  - intros a Ha. apply B. intros i Hi. rewrite IU. apply Ha, Hi.
Qed.
Print Assumptions C81_delete.
(* The first append to a new buffer writes at EPD 0, the deaths of unit 0 of the first player, wherever the buffer is *)
Theorem C81_first_append_refuted : exists steps m s', append 12 0 0 0 steps 3 (sb_new 3 m) = Some s' /\ steps = [KCps [72; 105; 33; 13]] /\
  get m 0 = 5 /\ get (sb_m s') 0 = 0x0D216948 /\ forall a, 2 <= a < 2^30 -> get (sb_m s') a = get m a.
Proof.
  set (m0 := fun a : Z => if a =? 0 then 5 else 0). exists [KCps [72; 105; 33; 13]], m0, (mksbst 1 3 (upd (upd m0 0 0x0D216948) 1 0)).
  split; [reflexivity|]. split; [reflexivity|]. split; [reflexivity|]. split; [vm_compute; reflexivity|].
  intros a Ha. cbn [sb_m]. assert (I : idx a = a) by (unfold idx; apply Z.mod_small; lia). rewrite !get_upd_ne'; [reflexivity| |]; rewrite I; [change (idx 0) with 0|change (idx 1) with 1]; lia.
Qed.
Print Assumptions C81_first_append_refuted.

(* ---------- a concrete case: insert and append ---------- *)
Example ex_printable : printable 12 (cell_addr 2000) 0 0 [KCps [72; 105; 33; 13]] 40 (fun _ => 0) [[72; 105; 33]] /\
  exists s1 s2, insert 12 (cell_addr 2000) 0 0 [KCps [72; 105; 33; 13]] 3 36 4 (sb_new 3 (fun _ => 0)) = Some s1 /\
    append 12 (cell_addr 2000) 0 0 [KCps [65; 66; 67; 68]] 3 s1 = Some s2 /\ sb_pos s1 = 41 /\ sb_pos s2 = 42 /\ get (sb_m s2) 40 = 0x0D216948 /\ get (sb_m s2) 41 = 0x44434241.
Proof.
  split.
  - unfold printable. repeat (split; [first [reflexivity | unfold isbyte; lia | repeat constructor]|]).
    exists 0, [], [CCps (SrcBytes [72; 105; 33])], [], [], []. split; [unfold isbyte; lia|]. split; [reflexivity|]. split; [intros i Hi; cbn in Hi; lia|]. split; [intros i j Hi Hj; cbn in Hj; lia|].
    constructor; [|constructor]. apply ct_bytes. repeat constructor; unfold isbyte; lia.
  - eexists. eexists. split; [reflexivity|]. split; [reflexivity|]. split; [reflexivity|]. split; [reflexivity|]. split; vm_compute; reflexivity.
Qed.
