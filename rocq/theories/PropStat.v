(* Final theorems: tables of the game's texts (C78). *)
From Coq Require Import ZArith Lia List Bool.
From Verif Require Import Word Machine BinModel BinProofs PropBlk StatModel.
Import ListNotations.
Open Scope Z_scope.

(* ================= specification ================= *)
(* A table: number of texts, then the offset of every text, each a 16 bit number; a text
   ends at its first 0. *)
Definition word_at (t : list Z) (k : nat) : Z := nth k t 0 + 256 * nth (k + 1) t 0.
Definition start (t : list Z) (i : nat) : Z := word_at t (2 * i + 2).
Fixpoint ztext (l : list Z) : list Z := match l with [] => [] | b :: r => if b =? 0 then [] else b :: ztext r end.
Definition text (t : list Z) (i : nat) : list Z := ztext (skipn (Z.to_nat (start t i)) t).
(* the bytes between the start of text i and the start of the next one, or the end *)
Definition stop (t : list Z) (n i : nat) : Z := if Nat.eqb (S i) n then Z.of_nat (length t) else start t (S i).
Definition space (t : list Z) (n i : nat) : list Z := firstn (Z.to_nat (stop t n i - start t i)) (skipn (Z.to_nat (start t i)) t).
Definition bytes_ok (t : list Z) : Prop := forall b, In b t -> 0 <= b < 256.

(* ================= proofs ================= *)
Lemma bytes_forall t : bytes_ok t -> Forall BinProofs.byte t.
Proof. intros H. apply Forall_forall. intros x Hx. apply H. exact Hx. Qed.
Lemma b2i2_word t k v : bytes_ok t -> b2i2 t k = Some v -> v = word_at t k /\ (k + 1 < length t)%nat /\ 0 <= v < 65536.
Proof.
  intros HB H. unfold b2i2 in H. destruct (nth_error t k) as [b0|] eqn:E0; [|discriminate]. destruct (nth_error t (k + 1)) as [b1|] eqn:E1; [|discriminate].
  assert (B0 : 0 <= b0 < 256) by (apply HB; eapply nth_error_In; eauto). assert (B1 : 0 <= b1 < 256) by (apply HB; eapply nth_error_In; eauto).
  assert (E : b2i2 t k = Some v) by (unfold b2i2; rewrite E0, E1; exact H). rewrite (b2i2_eq t k b0 b1 B0 E0 E1) in E. assert (EV : v = b0 + 256 * b1) by congruence. rewrite EV. clear H E EV.
  unfold word_at. rewrite (nth_error_nth _ _ 0 E0), (nth_error_nth _ _ 0 E1). split; [reflexivity|]. split; [apply nth_error_Some; congruence|]. lia.
Qed.
Lemma new_len c : Z.of_nat (length c) + 3 <= new_tbl_len c /\ new_tbl_len c mod 4 = 0 /\ new_tbl_len c <= Z.of_nat (length c) + 6.
Proof.
  unfold new_tbl_len. set (x := Z.of_nat (length c)). split; [|split].
  - pose proof (Z.mod_pos_bound (- (x + 3)) 4 ltac:(lia)). pose proof (Z.div_mod (- (x + 3)) 4 ltac:(lia)). lia.
  - apply Z.mod_mul. lia.
  - pose proof (Z.mod_pos_bound (- (x + 3)) 4 ltac:(lia)). pose proof (Z.div_mod (- (x + 3)) 4 ltac:(lia)). lia.
Qed.
Lemma contents_ok t n : forall k i cs, bytes_ok t -> contents t n i k = Some cs -> (i + k = n)%nat ->
  length cs = k /\ forall j, (j < k)%nat -> nth j cs [] = space t n (i + j).
Proof.
  induction k as [|k IH]; intros i cs HB H Hn; cbn [contents] in H.
  - injection H as <-. split; [reflexivity|]. intros j Hj. lia.
  - destruct (b2i2 t (2 * (i + 1))) as [a|] eqn:E1; [|discriminate]. destruct (b2i2 t (2 * (i + 1) + 2)) as [e|] eqn:E2; [|discriminate].
    destruct (contents t n (i + 1) k) as [r|] eqn:E3; [|discriminate]. injection H as <-.
    destruct (IH _ _ HB E3 ltac:(lia)) as [L1 L2]. split; [cbn; lia|]. intros [|j] Hj; cbn [nth].
    + rewrite Nat.add_0_r. apply (b2i2_word t _ _ HB) in E1. apply (b2i2_word t _ _ HB) in E2. destruct E1 as [-> _], E2 as [-> _].
      unfold slice, space, stop, start. replace (2 * i + 2)%nat with (2 * (i + 1))%nat by lia. replace (S i) with (i + 1)%nat by lia.
      replace (2 * (i + 1) + 2)%nat with (2 * (i + 1) + 2)%nat by lia. reflexivity.
    + rewrite L2 by lia. f_equal. lia.
Qed.
(* total size before entry j *)
Fixpoint before (cs : list (list Z)) (j : nat) : Z :=
  match j, cs with S j, c :: r => new_tbl_len c + before r j | _, _ => 0 end.
Lemma before_nonneg cs : forall j, 0 <= before cs j /\ before cs j mod 4 = 0.
Proof.
  induction cs as [|c r IH]; intros [|j]; cbn [before]; auto using Z.le_refl. destruct (IH j) as [A B]. destruct (new_len c) as (L1 & L2 & _).
  split; [lia|]. rewrite Z.add_mod, L2, B by lia. reflexivity.
Qed.
Lemma entries_ok cs : forall off, let (o, d) := new_entries off cs in
  length o = (2 * length cs)%nat /\ Z.of_nat (length d) = before cs (length cs) /\
  forall j, (j < length cs)%nat ->
    nth (2 * j) o 0 = (off + before cs j) mod 256 /\ nth (2 * j + 1) o 0 = (off + before cs j) / 256 mod 256 /\
    exists rest, skipn (Z.to_nat (before cs j)) d = nth j cs [] ++ 0 :: rest.
Proof.
  induction cs as [|c r IH]; intros off; cbn [new_entries].
  - split; [reflexivity|]. split; [reflexivity|]. intros j Hj. cbn in Hj. lia.
  - specialize (IH (off + new_tbl_len c)). destruct (new_entries (off + new_tbl_len c) r) as [o d]. destruct IH as (L1 & L2 & H).
    destruct (new_len c) as (N1 & N2 & N3). rewrite i2b2_eq. split; [cbn [app length]; lia|]. split.
    + rewrite !app_length, repeat_length. cbn [before length]. lia.
    + intros [|j] Hj.
      * cbn [before Nat.mul Nat.add app nth]. rewrite Z.add_0_r. split; [reflexivity|]. split; [reflexivity|]. cbn [Z.to_nat skipn].
        destruct (Z.to_nat (new_tbl_len c) - length c)%nat as [|p] eqn:Ep; [lia|]. cbn [repeat app]. eexists. reflexivity.
      * cbn [length] in Hj. destruct (H j ltac:(lia)) as (A & B & C). cbn [before nth]. replace (off + (new_tbl_len c + before r j)) with (off + new_tbl_len c + before r j) by lia.
        replace (2 * S j)%nat with (S (S (2 * j))) by lia. replace (S (S (2 * j)) + 1)%nat with (S (S (2 * j + 1))) by lia. cbn [app nth]. split; [exact A|]. split; [exact B|].
        destruct C as [rest C]. exists rest. rewrite <- C. destruct (before_nonneg r j) as [P _].
        rewrite app_assoc. rewrite skipn_app. rewrite skipn_all2; [|rewrite app_length, repeat_length; lia]. rewrite app_length, repeat_length. cbn [app]. f_equal. lia.
Qed.
Lemma ztext_zero l r : ztext (l ++ 0 :: r) = ztext l.
Proof. induction l as [|b l IH]; cbn; [reflexivity|]. destruct (b =? 0); [reflexivity|]. f_equal. exact IH. Qed.
Lemma ztext_firstn l : forall k, In 0 (firstn k l) -> ztext (firstn k l) = ztext l.
Proof.
  induction l as [|b l IH]; intros [|k] H; cbn in *; try contradiction. destruct (Z.eqb_spec b 0); [reflexivity|]. destruct H as [->|H]; [contradiction|]. f_equal. apply IH. exact H.
Qed.

(* C78: the new table *)
Theorem C78_table t out : bytes_ok t -> AddStatText t = Some out -> Z.of_nat (length out) <= 65536 ->
  let n := Z.to_nat (word_at t 0) in
  word_at out 0 = word_at t 0 /\ Z.of_nat (length out) mod 4 = 0 /\
  forall i, (i < n)%nat ->
    start out i mod 4 = 0 /\
    firstn (length (space t n i)) (skipn (Z.to_nat (start out i)) out) = space t n i /\
    text out i = ztext (space t n i) /\
    (In 0 (space t n i) -> text out i = text t i).
Proof.
  intros HB H HL n. unfold AddStatText in H. destruct (b2i2 t 0) as [cnt|] eqn:E0; [|discriminate]. apply (b2i2_word t _ _ HB) in E0. destruct E0 as (E0 & _ & R0).
  rewrite E0 in H, R0. clear E0 cnt. fold n in H. set (cnt := word_at t 0) in *.
  set (pad := if cnt mod 2 =? 0 then [0; 0] else []) in H. set (off := 2 * (cnt + 1) + (if cnt mod 2 =? 0 then 2 else 0)) in H.
  destruct (contents t n 0 n) as [cs|] eqn:EC; [|discriminate]. destruct (contents_ok t n n 0 cs HB EC ltac:(lia)) as [C1 C2].
  pose proof (entries_ok cs off) as EO. destruct (new_entries off cs) as [o d]. destruct EO as (O1 & O2 & O3). assert (EQ : out = i2b2 cnt ++ o ++ pad ++ d) by congruence. subst out. clear H. rewrite C1 in *.
  assert (NZ : Z.of_nat n = cnt) by (unfold n; lia).
  assert (PL : Z.of_nat (length pad) = off - 2 * (cnt + 1)) by (unfold pad, off; destruct (cnt mod 2 =? 0); cbn [length]; lia).
  assert (OM : off mod 4 = 0).
  { unfold off. pose proof (Z.div_mod cnt 2 ltac:(lia)) as D. pose proof (Z.mod_pos_bound cnt 2 ltac:(lia)). destruct (Z.eqb_spec (cnt mod 2) 0) as [E|E].
    - replace (2 * (cnt + 1) + 2) with ((cnt / 2 + 1) * 4) by lia. apply Z.mod_mul. lia.
    - replace (2 * (cnt + 1) + 0) with ((cnt / 2 + 1) * 4) by lia. apply Z.mod_mul. lia. }
  assert (HD : length (i2b2 cnt ++ o ++ pad) = Z.to_nat off).
  { rewrite i2b2_eq, !app_length, O1. cbn [length]. lia. }
  assert (TL : Z.of_nat (length (i2b2 cnt ++ o ++ pad ++ d)) = off + before cs n).
  { replace (i2b2 cnt ++ o ++ pad ++ d) with ((i2b2 cnt ++ o ++ pad) ++ d) by (rewrite <- !app_assoc; reflexivity). rewrite app_length, HD, Nat2Z.inj_add, O2. destruct (before_nonneg cs n). lia. }
  split; [|split].
  - rewrite i2b2_eq. unfold word_at at 1. cbn [app nth Nat.add]. rewrite (Z.mod_small (cnt / 256)) by (split; [apply Z.div_pos; lia|apply Z.div_lt_upper_bound; lia]).
    pose proof (Z.div_mod cnt 256 ltac:(lia)). lia.
  - rewrite TL. destruct (before_nonneg cs n) as [_ B]. rewrite Z.add_mod, OM, B by lia. reflexivity.
  - intros i Hi. destruct (O3 i Hi) as (A & B & rest & C). rewrite (C2 i Hi) in C. cbn [Nat.add] in C. destruct (before_nonneg cs i) as [P1 P2].
    assert (LT : off + before cs i < 65536).
    { assert (X : skipn (Z.to_nat (before cs i)) d <> []) by (rewrite C; destruct (space t n i); discriminate).
      assert (Y : (Z.to_nat (before cs i) < length d)%nat). { destruct (le_lt_dec (length d) (Z.to_nat (before cs i))) as [Q|Q]; [|exact Q]. apply skipn_all2 in Q. contradiction. }
      lia. }
    assert (ST : start (i2b2 cnt ++ o ++ pad ++ d) i = off + before cs i).
    { unfold start, word_at. rewrite i2b2_eq. replace (2 * i + 2)%nat with (S (S (2 * i))) by lia. replace (S (S (2 * i)) + 1)%nat with (S (S (2 * i + 1))) by lia. cbn [app nth].
      rewrite !app_nth1 by lia. rewrite A, B. rewrite (Z.mod_small (_ / 256)) by (split; [apply Z.div_pos; unfold off in *; destruct (cnt mod 2 =? 0); lia|apply Z.div_lt_upper_bound; lia]).
      pose proof (Z.div_mod (off + before cs i) 256 ltac:(lia)). lia. }
    assert (SK : skipn (Z.to_nat (start (i2b2 cnt ++ o ++ pad ++ d) i)) (i2b2 cnt ++ o ++ pad ++ d) = space t n i ++ 0 :: rest).
    { rewrite ST, <- C. replace (i2b2 cnt ++ o ++ pad ++ d) with ((i2b2 cnt ++ o ++ pad) ++ d) by (rewrite <- !app_assoc; reflexivity).
      assert (0 <= off) by (unfold off; destruct (cnt mod 2 =? 0); lia).
      rewrite skipn_app, skipn_all2 by lia. rewrite HD. cbn [app]. f_equal. lia. }
    split; [rewrite ST, Z.add_mod, OM, P2 by lia; reflexivity|]. split; [rewrite SK, firstn_app, Nat.sub_diag, firstn_all; apply app_nil_r|].
    assert (TX : text (i2b2 cnt ++ o ++ pad ++ d) i = ztext (space t n i)) by (unfold text; rewrite SK; apply ztext_zero).
    split; [exact TX|]. intros HZ. rewrite TX. apply ztext_firstn. exact HZ.
Qed.
Print Assumptions C78_table.

Lemma b2i2_exists t k : (k + 1 < length t)%nat -> exists v, b2i2 t k = Some v.
Proof.
  intros H. unfold b2i2. destruct (nth_error t k) eqn:E0; [|apply nth_error_None in E0; lia]. destruct (nth_error t (k + 1)) eqn:E1; [|apply nth_error_None in E1; lia]. eauto.
Qed.
(* C78: no error, when at least two bytes follow the offsets *)
Theorem C78_total t : bytes_ok t -> (4 + 2 * Z.to_nat (word_at t 0) <= length t)%nat -> exists out, AddStatText t = Some out.
Proof.
  intros HB HL. unfold AddStatText. destruct (b2i2_exists t 0 ltac:(lia)) as [v E]. rewrite E. destruct (b2i2_word t 0 v HB E) as (-> & _).
  set (n := Z.to_nat (word_at t 0)) in *.
  assert (H : forall k i, (i + k = n)%nat -> exists cs, contents t n i k = Some cs).
  { induction k as [|k IH]; intros i Hi; [exists []; reflexivity|]. cbn [contents]. destruct (IH (i + 1)%nat ltac:(lia)) as [r ->].
    destruct (b2i2_exists t (2 * (i + 1)) ltac:(lia)) as [a ->]. destruct (b2i2_exists t (2 * (i + 1) + 2) ltac:(lia)) as [b ->]. eauto. }
  destruct (H n 0%nat ltac:(lia)) as [cs ->]. destruct (new_entries _ cs). eauto.
Qed.
Print Assumptions C78_total.
(* One empty text: a table of five bytes; IndexError *)
Theorem C78_empty_text_refuted : let t := [1; 0; 4; 0; 0] in bytes_ok t /\ text t 0 = [] /\ (Z.to_nat (start t 0) < length t)%nat /\ AddStatText t = None.
Proof. split; [intros b Hb; cbn in Hb; intuition lia|]. split; [reflexivity|]. split; [vm_compute; lia|reflexivity]. Qed.
Print Assumptions C78_empty_text_refuted.
(* Texts that do not lie in the order of their numbers: the first one becomes empty *)
Theorem C78_order_refuted : let t := [2; 0; 8; 0; 6; 0; 65; 0; 66; 0] in bytes_ok t /\ text t 0 = [66] /\
  match AddStatText t with Some out => text out 0 = [] | None => False end.
Proof. split; [intros b Hb; cbn in Hb; intuition lia|]. split; reflexivity. Qed.
Print Assumptions C78_order_refuted.
(* 65528 bytes of texts: offsets do not fit into 16 bits any more, and the second text changes *)
Definition large : list Z := [2; 0; 6; 0; 254; 255] ++ repeat 65 (Z.to_nat 65527) ++ [0; 66; 0].
Theorem C78_large_refuted : bytes_ok large /\ text large 1 = [66] /\ match AddStatText large with Some out => text out 1 <> [66] | None => False end.
Proof.
  split; [|split].
  - intros b Hb. unfold large in Hb. rewrite !in_app_iff in Hb. destruct Hb as [Hb|[Hb|Hb]]; [cbn in Hb; intuition lia| |cbn in Hb; intuition lia]. apply repeat_spec in Hb. lia.
  - vm_compute. reflexivity.
  - assert (H : match AddStatText large with Some out => match text out 1 with [66] => false | _ => true end | None => false end = true) by (vm_compute; reflexivity).
    destruct (AddStatText large) as [out|]; [|discriminate]. intros E. rewrite E in H. discriminate.
Qed.
Print Assumptions C78_large_refuted.

(* C78: the address of a text, numbered from 1 *)
Definition tword (m : mem) (p : Z) : Z := PropBlk.byte m p + 256 * PropBlk.byte m (p + 1).
Definition st_ok (s : tblst) : Prop := check_pointer s = 0 \/ (add_tblepd s = u32 ((check_pointer s - 0x58A364) / 4) /\ add_tblptr s = check_pointer s).
Theorem C78_address id m s p : get m ((0x6D5A30 - 0x58A364) / 4) = p -> p <> 0 -> p mod 4 = 0 -> 0 <= id -> st_ok s ->
  exists s', GetTBLAddr id m s = (u32 (p + tword m (p + 2 * id)), s') /\ st_ok s' /\ check_pointer s' = p.
Proof.
  intros Hp NZ AL Hid HS. unfold GetTBLAddr. cbv zeta. change (get m (sepd 0x6D5A30)) with (get m ((0x6D5A30 - 0x58A364) / 4)). rewrite Hp. set (s' := if p =? check_pointer s then s else mktblst p (u32 (sepd p)) p).
  assert (S' : check_pointer s' = p /\ add_tblepd s' = u32 (sepd p) /\ add_tblptr s' = p).
  { unfold s'. destruct (Z.eqb_spec p (check_pointer s)) as [E|E]; [|auto]. destruct HS as [Q|[Q1 Q2]]; [congruence|]. unfold sepd. rewrite E. auto. }
  destruct S' as (S1 & S2 & S3). exists s'. split; [|split; [right; unfold sepd in S2; rewrite S1; auto|exact S1]]. rewrite S3, S2. f_equal. rewrite Z.add_comm. f_equal. f_equal.
  set (q := p + 2 * id). pose proof (Z.div_mod p 4 ltac:(lia)) as Dp. rewrite AL in Dp. pose proof (Z.div_mod id 2 ltac:(lia)) as Di. pose proof (Z.mod_pos_bound id 2 ltac:(lia)) as Bi.
  assert (Q : q = 4 * (p / 4 + id / 2) + 2 * (id mod 2)) by lia.
  assert (Q1 : q / 4 = p / 4 + id / 2) by (symmetry; apply (Z.div_unique q 4 _ (2 * (id mod 2))); lia). assert (Q2 : q mod 4 = 2 * (id mod 2)) by (symmetry; apply (Z.mod_unique q 4 (p / 4 + id / 2)); lia).
  assert (Q3 : (q + 1) / 4 = p / 4 + id / 2) by (symmetry; apply (Z.div_unique (q + 1) 4 _ (2 * (id mod 2) + 1)); lia). assert (Q4 : (q + 1) mod 4 = 2 * (id mod 2) + 1) by (symmetry; apply (Z.mod_unique (q + 1) 4 (p / 4 + id / 2)); lia).
  unfold tword, PropBlk.byte. rewrite Q1, Q2, Q3, Q4.
  assert (SP : sepd p = p / 4 - 0x58A364 / 4).
  { unfold sepd. rewrite Dp at 1. change 0x58A364 with (4 * (0x58A364 / 4)) at 1. replace (4 * (p / 4) + 0 - 4 * (0x58A364 / 4)) with ((p / 4 - 0x58A364 / 4) * 4) by lia. apply Z.div_mul. lia. }
  assert (G : get m (u32 (id / 2 + u32 (sepd p))) = get m (p / 4 + id / 2 - 0x58A364 / 4)).
  { unfold get. f_equal. f_equal. unfold idx, u32. rewrite SP. clear. set (b := 0x58A364 / 4).
    assert (X : forall x, (x mod 2 ^ 32) mod 2 ^ 30 = x mod 2 ^ 30).
    { intros x. change (2 ^ 32) with (2 ^ 30 * 4). rewrite Z.rem_mul_r by lia. rewrite Z.mul_comm, Z.mod_add by lia. apply Z.mod_mod. lia. }
    rewrite X, Z.add_mod, X, <- Z.add_mod by lia. f_equal. lia. }
  rewrite G. set (x := get m (p / 4 + id / 2 - 0x58A364 / 4)). unfold PropBw.fld.
  set (sh := if id mod 2 =? 1 then 2 else id mod 2). assert (SH : sh = 2 * (id mod 2)) by (unfold sh; destruct (Z.eqb_spec (id mod 2) 1); lia).
  rewrite SH. replace (8 * (2 * (id mod 2) + 1)) with (8 * (2 * (id mod 2)) + 8) by lia. rewrite Z.pow_add_r, <- Z.div_div by lia.
  set (y := x / 2 ^ (8 * (2 * (id mod 2)))). change (2 ^ 16) with (2 ^ 8 * 2 ^ 8). rewrite Z.rem_mul_r by lia. reflexivity.
Qed.
Print Assumptions C78_address.

(* ---------- a concrete case: two texts, one with an inner 0 ---------- *)
Definition ex_t : list Z := [2; 0; 6; 0; 9; 0; 72; 105; 0; 83; 0; 84; 0].
Example ex_stat : bytes_ok ex_t /\ AddStatText ex_t = Some [2; 0; 8; 0; 16; 0; 0; 0; 72; 105; 0; 0; 0; 0; 0; 0; 83; 0; 84; 0; 0; 0; 0; 0] /\
  text ex_t 0 = [72; 105] /\ text ex_t 1 = [83] /\ In 0 (space ex_t 2 0) /\ In 0 (space ex_t 2 1).
Proof. split; [intros b Hb; cbn in Hb; intuition lia|]. split; [reflexivity|]. split; [reflexivity|]. split; [reflexivity|]. split; vm_compute; auto. Qed.
Example ex_address : let m := fun a => if a =? (0x6D5A30 - 0x58A364) / 4 then 0x600000 else if a =? (0x600000 - 0x58A364) / 4 + 1 then 0x90008 else 5 in
  GetTBLAddr 3 m tbl_init = (0x600009, mktblst 0x600000 ((0x600000 - 0x58A364) / 4) 0x600000) /\ st_ok tbl_init.
Proof. split; [vm_compute; reflexivity|left; reflexivity]. Qed.
