(* C50: the start-up sled relocates the payload and then jumps to it. *)
From Coq Require Import ZArith List Bool Lia ZifyBool ZifyNat.
From Verif Require Import Word Machine MachineProofs VarModel VarSpec VarProofs MathModel MachineRefine InjModel.
Import ListNotations.
Open Scope Z_scope.

(* ---------- specification ---------- *)
(* how often the table names the dword with EPD index a, tables hold byte offsets *)
Fixpoint hits (base : Z) (tab : list Z) (a : Z) : Z :=
  match tab with
  | [] => 0
  | x :: r => (if idx (epd_of (base + x)) =? idx a then 1 else 0) + hits base r a
  end.
(* cells used by the relocator itself *)
Definition ctl (a : Z) : Prop :=
  exists B, (B = mrgn \/ B = mrgn_ort) /\
    (idx a = idx (nxc B) \/ exists j, (j < packn)%nat /\ idx a = idx (plc B j)).

(* ---------- proof ---------- *)
(* entry counts in units of dwords relative to E *)
Fixpoint cnt (E : Z) (l : list Z) (a : Z) : Z :=
  match l with [] => 0 | y :: r => (if idx (E + y) =? idx a then 1 else 0) + cnt E r a end.
Lemma cnt_app E l1 l2 a : cnt E (l1 ++ l2) a = cnt E l1 a + cnt E l2 a.
Proof. induction l1; cbn [cnt app]; lia. Qed.

Lemma idx_id a : 0 <= a < 2^30 -> idx a = a.
Proof. intros. unfold idx. apply Z.mod_small. auto. Qed.
Lemma cnt_low E p a : (forall y, In y p -> 5000 <= E + y < 2^30) -> idx a < 5000 -> cnt E p a = 0.
Proof.
  intros Hp Ha. induction p as [|y p IH]; cbn [cnt]; [reflexivity|].
  pose proof (Hp y (or_introl eq_refl)) as R. rewrite (idx_id (E + y)) by lia.
  destruct (Z.eqb_spec (E + y) (idx a)); [lia|]. rewrite IH; [lia|]. intros; apply Hp; right; auto.
Qed.

Definition blk (B : Z) : Prop := B = mrgn \/ B = mrgn_ort.
Lemma blk_val B : blk B -> B = 3647 \/ B = 3856.
Proof. intros [->| ->]; [left|right]; reflexivity. Qed.
Lemma plain_big a : 27 <= a < 2^32 -> plain a.
Proof.
  intros H. unfold plain. rewrite u32_small by lia. split; [lia|]. unfold special.
  lia.
Qed.
Lemma plc_range B j : blk B -> (j < packn)%nat -> 3000 <= plc B j < 5000.
Proof. intros H Hj. apply blk_val in H. unfold plc. unfold packn in Hj. lia. Qed.
Lemma nxc_range B : blk B -> 3000 <= nxc B < 5000.
Proof. intros H. apply blk_val in H. unfold nxc. lia. Qed.
Lemma nxc_plc B B' j : blk B -> blk B' -> (j < packn)%nat -> nxc B <> plc B' j.
Proof. intros H H' Hj E. apply blk_val in H, H'. unfold nxc, plc, packn in *. lia. Qed.
Lemma plc_inj B B' i j : blk B -> blk B' -> (i < packn)%nat -> (j < packn)%nat -> plc B i = plc B' j -> B = B' /\ i = j.
Proof. intros H H' Hi Hj E. apply blk_val in H, H'. unfold plc, packn in *. lia. Qed.
Lemma ctl_low a : ctl a -> idx a < 5000.
Proof.
  intros (B & HB & [H|(j & Hj & H)]); rewrite H.
  - pose proof (nxc_range B HB). rewrite idx_id; lia.
  - pose proof (plc_range B j HB Hj). rewrite idx_id; lia.
Qed.
Lemma ctl_plc B j : blk B -> (j < packn)%nat -> ctl (plc B j).
Proof. intros. exists B. split; auto. right. exists j. auto. Qed.
Lemma ctl_nxc B : blk B -> ctl (nxc B).
Proof. intros. exists B. split; auto. Qed.

Section Run.
Variables (w : world) (E : Z).
Hypothesis Hctlp : forall a, ctl a -> W_prot w (idx a) = false.

(* the sled's additions to the player cells *)
Lemma sled_acts_do B (d : nat -> Z) : blk B -> forall n s m rest m2, (s + n <= packn)%nat ->
  (forall m', (forall j, (s <= j < s + n)%nat -> get m' (plc B j) = u32 (get m (plc B j) + d j)) ->
     (forall a, (forall j, (s <= j < s + n)%nat -> idx a <> plc B j) -> get m' a = get m a) ->
     exists m3, acts_do (W_prot w) m' rest m3 /\ m2 m3) ->
  exists m3, acts_do (W_prot w) m (map (fun j => SetM (plc B j) Add (d j)) (seq s n) ++ rest) m3 /\ m2 m3.
Proof.
  intros HB n. induction n as [|n IH]; intros s m rest m2 Hn Hk.
  - cbn [seq map app]. apply Hk; [intros; lia|auto].
  - cbn [seq map app].
    assert (R := plc_range B s HB ltac:(lia)).
    assert (exists m3, acts_do (W_prot w) (upd m (plc B s) (do_mod Add (get m (plc B s)) (u32 (d s))))
              (map (fun j => SetM (plc B j) Add (d j)) (seq (S s) n) ++ rest) m3 /\ m2 m3) as (m3 & H3 & K3).
    { apply IH; [lia|]. intros m' H1 H2. apply Hk.
      - intros j Hj. destruct (Nat.eq_dec j s) as [->|N].
        + rewrite H2.
          * rewrite get_upd_eq. cbn [do_mod]. rewrite u32_idem, u32_add_r. reflexivity.
          * intros i Hi. rewrite idx_id by lia. intros Q. apply plc_inj in Q; lia || auto.
        + rewrite H1 by lia. rewrite get_upd_ne; [reflexivity|].
          pose proof (plc_range B j HB ltac:(lia)). rewrite !idx_id by lia. intros Q. apply plc_inj in Q; lia || auto.
      - intros a Ha. rewrite H2 by (intros; apply Ha; lia). apply get_upd_ne.
        rewrite idx_id by lia. intros Q. apply (Ha s); [lia|auto]. }
    exists m3. split; auto. apply do_cons_M; auto; [apply plain_big; lia|apply Hctlp, ctl_plc; auto; lia].
Qed.

(* the additions in the location section *)
Lemma mrgn_acts_do B v (tg : nat -> Z) : blk B -> forall n s m rest m2, (s + n <= packn)%nat ->
  (forall j, (s <= j < s + n)%nat -> get m (plc B j) = u32 (tg j)) ->
  (forall j, (s <= j < s + n)%nat -> 5000 <= tg j < 2^30 /\ W_prot w (tg j) = false) ->
  (forall m', (forall a, get m' a = u32 (get m a + v * cnt 0 (map tg (seq s n)) a)) ->
     exists m3, acts_do (W_prot w) m' rest m3 /\ m2 m3) ->
  exists m3, acts_do (W_prot w) m (map (fun j => SetD (Mem (plc B j)) Add (Imm v)) (seq s n) ++ rest) m3 /\ m2 m3.
Proof.
  intros HB n. induction n as [|n IH]; intros s m rest m2 Hn Hp Ht Hk.
  - cbn [seq map app]. apply Hk. intros a. cbn [cnt map seq]. rewrite Z.mul_0_r, Z.add_0_r. symmetry. apply u32_small, get_range.
  - cbn [seq map app]. destruct (Ht s ltac:(lia)) as [Rt Pt].
    assert (exists m3, acts_do (W_prot w) (upd m (tg s) (do_mod Add (get m (tg s)) (u32 v)))
              (map (fun j => SetD (Mem (plc B j)) Add (Imm v)) (seq (S s) n) ++ rest) m3 /\ m2 m3) as (m3 & H3 & K3).
    { apply IH; [lia| |intros; apply Ht; lia|].
      - intros j Hj. rewrite get_upd_ne; [apply Hp; lia|].
        pose proof (plc_range B j HB ltac:(lia)). rewrite !idx_id by lia. lia.
      - intros m' H1. apply Hk. intros a. rewrite H1. cbn [seq map cnt]. rewrite Z.add_0_l.
        destruct (Z.eqb_spec (idx (tg s)) (idx a)) as [Q|Q].
        + rewrite <- (get_cong (upd _ _ _) _ _ Q), get_upd_eq, <- (get_cong m _ _ Q). cbn [do_mod].
          rewrite u32_idem, u32_add_r, u32_add_l. f_equal. lia.
        + rewrite get_upd_ne by auto. f_equal. }
    exists m3. split; auto. eapply do_cons_D with (a := tg s).
    + cbn [rd]. apply Hp. lia.
    + apply plain_big. lia.
    + rewrite idx_id by lia. auto.
    + cbn [rd]. exact H3.
Qed.

Variables (v1 v2 : Z).
Definition vof (B : Z) : Z := if B =? mrgn then v1 else v2.
Hypothesis HM : forall B, blk B -> W_P w (pa B) = Some (mrgn_trig B (vof B)).
(* a piece: right length, all cells it names may be written *)
Definition piece_ok (p : list Z) : Prop :=
  length p = packn /\ forall y, In y p -> 5000 <= E + y < 2^30 /\ W_prot w (E + y) = false.

Lemma map_nth_seq (p : list Z) : map (fun j => nth j p 0) (seq 0 (length p)) = p.
Proof.
  induction p as [|x p IH]; [reflexivity|]. cbn [length seq map nth]. f_equal.
  rewrite <- seq_shift, map_map. exact IH.
Qed.
Lemma cnt_shift p a : cnt 0 (map (fun y => E + y) p) a = cnt E p a.
Proof. induction p; cbn [cnt map]; [reflexivity|]. rewrite IHp, Z.add_0_l. reflexivity. Qed.

(* one pass through the trigger in the location section *)
Lemma mrgn_pass B p m : blk B -> piece_ok p ->
  (forall j, (j < packn)%nat -> get m (plc B j) = u32 (E + nth j p 0)) ->
  exists m', runs w (pa B, m) (u32 (get m (nxc B) + 2408), m') /\
    get m' (nxc B) = u32 (get m (nxc B) + 2408) /\
    (forall a, idx a <> nxc B -> get m' a = u32 (get m a + vof B * cnt E p a)).
Proof.
  intros HB [Lp Hp] Hpl.
  assert (Rn := nxc_range B HB).
  assert (Cn : forall a, idx a < 5000 -> cnt E p a = 0).
  { intros a Ha. clear - Hp Ha. induction p as [|y p IH]; cbn [cnt]; [reflexivity|].
    destruct (Hp y (or_introl eq_refl)) as [R _]. rewrite (idx_id (E + y)) by lia.
    destruct (Z.eqb_spec (E + y) (idx a)); [lia|]. rewrite IH; [lia|]. intros; apply Hp; right; auto. }
  assert (exists m3, acts_do (W_prot w) m (map (fun j => SetD (Mem (plc B j)) Add (Imm (vof B))) (seq 0 packn) ++ [SetM (nxc B) Add 2408]) m3 /\
     (get m3 (nxc B) = u32 (get m (nxc B) + 2408) /\
      forall a, idx a <> nxc B -> get m3 a = u32 (get m a + vof B * cnt E p a))) as (m3 & H3 & K1 & K2).
  { apply mrgn_acts_do with (tg := fun j => E + nth j p 0); auto.
    - intros; apply Hpl; lia.
    - intros j Hj. apply Hp. apply nth_In. lia.
    - intros m' H1. exists (upd m' (nxc B) (do_mod Add (get m' (nxc B)) (u32 2408))).
      assert (Hc : forall a, get m' a = u32 (get m a + vof B * cnt E p a)).
      { intros a. rewrite H1. do 3 f_equal.
        transitivity (cnt 0 (map (fun y => E + y) (map (fun j => nth j p 0) (seq 0 packn))) a).
        - rewrite map_map. reflexivity.
        - rewrite <- Lp, map_nth_seq. apply cnt_shift. }
      split; [apply do_cons_M; [apply plain_big; lia|apply Hctlp, ctl_nxc; auto|apply do_nil]|].
      split.
      + rewrite get_upd_eq. cbn [do_mod]. rewrite u32_idem, u32_add_r, Hc, Cn by (rewrite idx_id; lia).
        rewrite Z.mul_0_r, Z.add_0_r, u32_add_l. reflexivity.
      + intros a Ha. rewrite get_upd_ne by (rewrite idx_id by lia; auto). apply Hc. }
  exists m3. split; [|auto].
  eapply run_true; [apply HM; auto| | |exact H3|]; [reflexivity|apply conds_nil|]. exact K1.
Qed.

(* what the code has added after the pieces ps of block B *)
Definition added (B : Z) (ps : list (list Z)) (a : Z) : Z := vof B * cnt E (concat ps) a.
Definition players (B : Z) (p : list Z) (m : mem) : Prop :=
  forall j, (j < packn)%nat -> get m (plc B j) = u32 (E + nth j p 0).

Lemma sled_run B : blk B -> forall ps prev s m,
  length prev = packn -> Forall piece_ok ps ->
  0 <= s -> s + 2408 * Z.of_nat (length ps) < 2^32 ->
  (forall i t, nth_error (sled_trigs B prev ps) i = Some t -> W_P w (s + 2408 * Z.of_nat i) = Some t) ->
  get m (nxc B) = s -> players B prev m ->
  exists m', runs w (s, m) (s + 2408 * Z.of_nat (length ps), m') /\
    get m' (nxc B) = s + 2408 * Z.of_nat (length ps) /\ players B (last ps prev) m' /\
    (forall a, idx a <> nxc B -> (forall j, (j < packn)%nat -> idx a <> plc B j) ->
       get m' a = u32 (get m a + added B ps a)).
Proof.
  intros HB. induction ps as [|p ps IH]; intros prev s m Lp Ho Hs Hb HP Hn Hpl.
  - exists m. cbn [length]. rewrite Z.mul_0_r, Z.add_0_r. split; [apply steps_refl|]. split; [auto|]. split; [exact Hpl|].
    intros. unfold added. cbn [concat cnt]. rewrite Z.mul_0_r, Z.add_0_r. symmetry. apply u32_small, get_range.
  - pose proof (Forall_inv Ho) as Hp. pose proof (Forall_inv_tail Ho) as Ho'.
    cbn [length] in Hb.
    assert (exists m1, acts_do (W_prot w) m (map (fun j => SetM (plc B j) Add (nth j p 0 - nth j prev 0)) (seq 0 packn) ++ []) m1 /\
      (players B p m1 /\ (forall a, (forall j, (j < packn)%nat -> idx a <> plc B j) -> get m1 a = get m a))) as (m1 & A1 & P1 & F1).
    { apply sled_acts_do with (d := fun j => nth j p 0 - nth j prev 0); auto.
      intros m' H1 H2. exists m'. split; [apply do_nil|]. split.
      - intros j Hj. rewrite H1 by lia. rewrite Hpl by auto. rewrite u32_add_l. f_equal. lia.
      - intros a Ha. apply H2. intros; apply Ha; lia. }
    rewrite app_nil_r in A1.
    assert (S1 : runs w (s, m) (pa B, m1)).
    { specialize (HP 0%nat _ eq_refl). change (Z.of_nat 0) with 0 in HP. rewrite Z.mul_0_r, Z.add_0_r in HP.
      eapply run_true; [exact HP|reflexivity|apply conds_nil|exact A1|]. apply u32_pa. }
    assert (N1 : get m1 (nxc B) = s).
    { rewrite F1; auto. intros j Hj. rewrite idx_id by (pose proof (nxc_range B HB); lia). apply nxc_plc; auto. }
    destruct (mrgn_pass B p m1 HB Hp P1) as (m2 & S2 & N2 & F2).
    rewrite N1, u32_small in S2, N2 by lia.
    destruct (IH p (s + 2408) m2) as (m3 & S3 & N3 & P3 & F3); auto.
    + apply Hp.
    + lia.
    + lia.
    + intros i t Hi. specialize (HP (S i) t Hi). rewrite <- HP. f_equal. lia.
    + intros j Hj. pose proof (plc_range B j HB Hj). rewrite F2.
      * rewrite P1 by auto. rewrite cnt_low; [|intros; apply Hp; auto|rewrite idx_id; lia].
        rewrite Z.mul_0_r, Z.add_0_r, u32_idem. reflexivity.
      * rewrite idx_id by lia. intros Q. symmetry in Q. revert Q. apply nxc_plc; auto.
    + exists m3. cbn [length].
      replace (s + 2408 * Z.of_nat (S (length ps))) with (s + 2408 + 2408 * Z.of_nat (length ps)) by lia.
      split; [eapply steps_trans; [exact S1|eapply steps_trans; [exact S2|exact S3]]|].
      split; [exact N3|]. split.
      * replace (last (p :: ps) prev) with (last ps p); auto. destruct ps as [|q ps]; [reflexivity|].
        clear. revert q p. induction ps as [|r ps IH]; intros; [reflexivity|]. cbn [last] in *. apply (IH r p).
      * intros a Ha Hb'. rewrite F3, F2, F1 by auto. unfold added. cbn [concat]. rewrite cnt_app, u32_add_l. f_equal. lia.
Qed.

(* the last sled trigger and the last pass: the players are back at the dummy cell *)
Lemma sled_last_run prev s m : length prev = packn -> 0 <= s -> s + 2408 + 4 < 2^32 ->
  W_P w s = Some (sled_last prev) ->
  (5000 <= E - 1 < 2^30 /\ W_prot w (E - 1) = false) ->
  get m (nxc mrgn_ort) = s -> players mrgn_ort prev m ->
  exists m', runs w (s, m) (s + 2408 + 4, m') /\
    (forall a, ~ ctl a -> idx a <> E - 1 -> get m' a = get m a).
Proof.
  intros Lp Hs Hb HP Hd Hn Hpl. assert (HB : blk mrgn_ort) by (right; reflexivity).
  pose proof (nxc_range _ HB) as Rn.
  assert (exists m1, acts_do (W_prot w) m (map (fun j => SetM (plc mrgn_ort j) Add (0xFFFFFFFF - nth j prev 0)) (seq 0 packn) ++ [SetM (nxc mrgn_ort) Add 4]) m1 /\
    (players mrgn_ort noprev m1 /\ get m1 (nxc mrgn_ort) = s + 4 /\ (forall a, ~ ctl a -> get m1 a = get m a))) as (m1 & A1 & P1 & N1 & F1).
  { apply sled_acts_do with (d := fun j => 0xFFFFFFFF - nth j prev 0); auto.
    intros m' H1 H2. exists (upd m' (nxc mrgn_ort) (do_mod Add (get m' (nxc mrgn_ort)) (u32 4))).
    assert (N : get m' (nxc mrgn_ort) = s).
    { rewrite H2; auto. intros j Hj. rewrite idx_id by lia. apply nxc_plc; auto. lia. }
    split; [apply do_cons_M; [apply plain_big; lia|apply Hctlp, ctl_nxc; auto|apply do_nil]|].
    split; [|split].
    - intros j Hj. pose proof (plc_range _ j HB Hj). rewrite get_upd_ne.
      + rewrite H1 by lia. rewrite Hpl by auto. rewrite u32_add_l.
        replace (nth j noprev 0) with (-1).
        * apply u32_eq with (k := 1). lia.
        * symmetry. unfold noprev. apply nth_error_nth with (d := 0). clear - Hj. unfold packn in *.
          do 15 (destruct j as [|j]; [reflexivity|]). lia.
      + rewrite !idx_id by lia. apply nxc_plc; auto.
    - rewrite get_upd_eq. cbn [do_mod]. rewrite u32_idem, u32_add_r, N. apply u32_small. lia.
    - intros a Ha. rewrite get_upd_ne.
      + apply H2. intros j Hj Q. apply Ha. exists mrgn_ort. split; [right; reflexivity|]. right. exists j. split; [lia|].
        pose proof (plc_range _ j HB ltac:(lia)). rewrite Q, idx_id; lia.
      + intros Q. apply Ha. exists mrgn_ort. split; [right; reflexivity|]. left. auto. }
  destruct (mrgn_pass mrgn_ort noprev m1 HB) as (m2 & S2 & N2 & F2); auto.
  { split; [reflexivity|]. intros y Hy. unfold noprev in Hy. apply repeat_spec in Hy. subst y. exact Hd. }
  rewrite N1, u32_small in S2 by lia.
  exists m2. split.
  - eapply steps_trans; [eapply run_true; [exact HP|reflexivity|apply conds_nil|exact A1|apply u32_pa]|].
    replace (s + 2408 + 4) with (s + 4 + 2408) by lia. exact S2.
  - intros a Ha Hda. rewrite F2.
    + rewrite F1 by auto. replace (cnt E noprev a) with 0.
      * rewrite Z.mul_0_r, Z.add_0_r. apply u32_small, get_range.
      * unfold noprev. clear - Hd Hda. induction packn as [|k IH]; [reflexivity|]. cbn [repeat cnt]. rewrite <- IH.
        rewrite (idx_id (E + -1)) by lia. destruct (Z.eqb_spec (E + -1) (idx a)); lia.
    + intros Q. apply Ha. exists mrgn_ort. split; [right; reflexivity|]. left. rewrite Q. symmetry. apply idx_id. lia.
Qed.
End Run.

(* pieces of a table *)
Lemma pieces_len f l p : In p (pieces f l) -> length p = packn.
Proof.
  revert l. induction f as [|f IH]; intros l; [contradiction|]. destruct l as [|x l]; [contradiction|].
  cbn [pieces In]. intros [<-|H]; [|eauto]. unfold fill. rewrite app_length, map_length, repeat_length.
  pose proof (firstn_le_length packn (x :: l)). lia.
Qed.
Lemma pieces_in f l p y : In p (pieces f l) -> In y p -> y = -1 \/ exists x, In x l /\ y = x / 4.
Proof.
  revert l. induction f as [|f IH]; intros l; [contradiction|]. destruct l as [|x l]; [contradiction|].
  cbn [pieces In]. intros [<-|H] Hy.
  - unfold fill in Hy. apply in_app_iff in Hy. destruct Hy as [Hy|Hy].
    + apply in_map_iff in Hy. destruct Hy as (z & <- & Hz). right. exists z. split; auto.
      change (In z (x :: l)). rewrite <- (firstn_skipn packn (x :: l)). apply in_or_app. auto.
    + left. eapply repeat_spec; eauto.
  - destruct (IH _ H Hy) as [->|(z & Hz & ->)]; [auto|]. right. exists z. split; auto.
    change (In z (x :: l)). rewrite <- (firstn_skipn packn (x :: l)). apply in_or_app. auto.
Qed.
Lemma cnt_fill E a l : idx (E - 1) <> idx a -> cnt E (fill l) a = cnt E (map (fun x => x / 4) l) a.
Proof.
  intros H. unfold fill. rewrite cnt_app. replace (cnt E (repeat (-1) _) a) with 0; [lia|].
  induction (packn - length l)%nat as [|k IH]; [reflexivity|]. cbn [repeat cnt]. rewrite <- IH.
  change (E + -1) with (E - 1). destruct (Z.eqb_spec (idx (E - 1)) (idx a)); [contradiction|lia].
Qed.
Lemma cnt_pieces E a f l : (length l <= f)%nat -> idx (E - 1) <> idx a ->
  cnt E (concat (pieces f l)) a = cnt E (map (fun x => x / 4) l) a.
Proof.
  intros Hf Ha. revert l Hf. induction f as [|f IH]; intros l Hf.
  - destruct l; [reflexivity|cbn in Hf; lia].
  - destruct l as [|x l]; [reflexivity|]. cbn [pieces concat]. rewrite cnt_app, cnt_fill by auto. rewrite IH.
    + rewrite <- cnt_app, <- map_app, firstn_skipn. reflexivity.
    + rewrite skipn_length. cbn [length] in *. unfold packn. lia.
Qed.
Lemma cnt_hits base tab a : base mod 4 = 0 -> cnt (epd_of base) (map (fun x => x / 4) tab) a = hits base tab a.
Proof.
  intros Hb. induction tab as [|x t IH]; [reflexivity|]. cbn [map cnt hits]. rewrite IH.
  replace (epd_of (base + x)) with (epd_of base + x / 4); [reflexivity|].
  unfold epd_of. Z.div_mod_to_equations. lia.
Qed.
Lemma sled_trigs_len B ps : forall prev, length (sled_trigs B prev ps) = length ps.
Proof. induction ps; intros; cbn [sled_trigs length]; auto. Qed.
Lemma last_in {A} (l : list A) d : last l d = d \/ In (last l d) l.
Proof.
  induction l as [|x l IH]; [auto|]. destruct l as [|y l]; [right; left; reflexivity|].
  destruct IH as [IH|IH]; [|right; right; exact IH].
  change (last (x :: y :: l) d) with (last (y :: l) d). auto.
Qed.

Theorem C50_start_up : forall w len prt ort m,
  let po := payload_offset len prt ort in
  let s0 := strsled_offset len in
  0 <= len -> po < 2^32 ->
  (forall x, In x (prt ++ ort) -> 0 <= x /\ po + x < 2^32) ->
  (* the section's triggers are where the map loader puts them *)
  (forall i t, nth_error (sled prt ort) i = Some t -> W_P w (s0 + 2408 * Z.of_nat i) = Some t) ->
  W_P w (pa mrgn) = Some (mrgn_trig mrgn (po / 4)) ->
  W_P w (pa mrgn_ort) = Some (mrgn_trig mrgn_ort po) ->
  mrgn_init len prt ort m ->
  (* what is written is no program text *)
  (forall a, ctl a -> W_prot w (idx a) = false) ->
  W_prot w (idx (epd_of (po - 4))) = false ->
  (forall x, In x (prt ++ ort) -> W_prot w (idx (epd_of (po + x))) = false) ->
  exists m', runs w (s0, m) (po, m') /\
    forall a, ~ ctl a -> idx a <> idx (epd_of (po - 4)) ->
      get m' a = u32 (get m a + hits po prt a * (po / 4) + hits po ort a * po).
Proof.
  intros w len prt ort m po s0 Hlen Hpo Htab HP HM1 HM2 Hi Hctlp Hdp Htp.
  assert (Hs : s0 mod 4 = 0 /\ 0x191943C8 <= s0).
  { unfold s0, strsled_offset. Z.div_mod_to_equations. lia. }
  assert (Ep : po = s0 + 2408 * (Z.of_nat (length (table_pieces prt)) + Z.of_nat (length (table_pieces ort)) + 1) + 4).
  { unfold po, payload_offset, sled. rewrite !app_length, !sled_trigs_len. cbn [length]. fold s0. lia. }
  assert (Hpm : po mod 4 = 0) by (rewrite Ep; destruct Hs as [Hs _]; clear - Hs; Z.div_mod_to_equations; lia).
  set (E := epd_of po). set (k1 := Z.of_nat (length (table_pieces prt))) in *. set (k2 := Z.of_nat (length (table_pieces ort))) in *.
  assert (HE : epd_of (po - 4) = E - 1) by (unfold E, epd_of; clear; Z.div_mod_to_equations; lia).
  assert (Hk : 0 <= k1 /\ 0 <= k2) by lia.
  assert (HR : 0x191943C8 <= po < 2^32) by lia.
  assert (RE : 5000 <= E - 1 < 2^30) by (unfold E, epd_of; clear - HR; Z.div_mod_to_equations; lia).
  assert (PE : W_prot w (E - 1) = false) by (rewrite <- (idx_id (E - 1)), <- HE by lia; auto).
  assert (Hx : forall x, In x (prt ++ ort) -> 5000 <= E + x / 4 < 2^30 /\ W_prot w (E + x / 4) = false).
  { intros x Hx. destruct (Htab x Hx) as [H1 H2].
    assert (Q : epd_of (po + x) = E + x / 4) by (unfold E, epd_of; clear - Hpm; Z.div_mod_to_equations; lia).
    assert (R : 5000 <= E + x / 4 < 2^30) by (rewrite <- Q; unfold epd_of; clear - H1 H2 HR; Z.div_mod_to_equations; lia).
    split; auto. rewrite <- (idx_id (E + x / 4)), <- Q by lia. auto. }
  assert (Ok : forall t, incl t (prt ++ ort) -> Forall (piece_ok w E) (table_pieces t)).
  { intros t Ht. apply Forall_forall. intros p Hp. split; [eapply pieces_len; eauto|].
    intros y Hy. destruct (pieces_in _ _ _ _ Hp Hy) as [->|(x & Hin & ->)]; [auto|]. apply Hx, Ht, Hin. }
  assert (HM : forall B, blk B -> W_P w (pa B) = Some (mrgn_trig B (vof (po / 4) po B))).
  { intros B [->| ->]; assumption. }
  assert (B1 : blk mrgn) by (left; reflexivity). assert (B2 : blk mrgn_ort) by (right; reflexivity).
  assert (Pl : forall B, blk B -> players E B noprev m).
  { intros B HB j Hj. rewrite (mi_pl _ _ _ _ Hi) by auto. fold po. rewrite HE.
    replace (nth j noprev 0) with (-1); [symmetry; apply u32_small; lia|].
    clear - Hj. unfold packn in *. do 15 (destruct j as [|j]; [reflexivity|]). lia. }
  (* quarter table *)
  destruct (sled_run w E Hctlp (po / 4) po HM mrgn B1 (table_pieces prt) noprev s0 m) as (m1 & S1 & N1 & _ & F1);
    [reflexivity|apply Ok; intros ? ?; apply in_or_app; left; auto|lia|fold k1; lia| |apply Hi|auto|].
  { intros i t Ht. apply HP. unfold sled. rewrite nth_error_app1; auto. apply nth_error_Some. congruence. }
  fold k1 in S1, N1.
  assert (C1 : forall a, ctl a -> added E (po / 4) po mrgn (table_pieces prt) a = 0).
  { intros a Ha. unfold added. rewrite cnt_low; [lia| |apply ctl_low; auto].
    intros y Hy. apply in_concat in Hy. destruct Hy as (p & Hp & Hy).
    pose proof (Ok prt ltac:(intros ? ?; apply in_or_app; left; auto)) as O. rewrite Forall_forall in O. apply (O p Hp), Hy. }
  assert (F1' : forall a, ctl a -> idx a <> nxc mrgn -> (forall j, (j < packn)%nat -> idx a <> plc mrgn j) -> get m1 a = get m a).
  { intros a Ha H1 H2. rewrite F1, C1, Z.add_0_r by auto. apply u32_small, get_range. }
  (* offset table *)
  destruct (sled_run w E Hctlp (po / 4) po HM mrgn_ort B2 (table_pieces ort) noprev (s0 + 2408 * k1) m1) as (m2 & S2 & N2 & P2 & F2);
    [reflexivity|apply Ok; intros ? ?; apply in_or_app; right; auto|lia|fold k2; lia| | | |].
  { intros i t Ht. replace (s0 + 2408 * k1 + 2408 * Z.of_nat i) with (s0 + 2408 * Z.of_nat (length (table_pieces prt) + i)) by lia.
    apply HP. unfold sled. rewrite nth_error_app2 by (rewrite sled_trigs_len; lia). rewrite sled_trigs_len.
    replace (length (table_pieces prt) + i - length (table_pieces prt))%nat with i by lia.
    rewrite nth_error_app1; auto. apply nth_error_Some. congruence. }
  { rewrite F1'; [apply Hi|apply ctl_nxc; auto|discriminate|].
    intros j Hj. pose proof (nxc_range mrgn_ort B2). rewrite idx_id by lia. apply nxc_plc; auto. }
  { intros j Hj. pose proof (plc_range mrgn_ort j B2 Hj). rewrite F1'; [apply Pl; auto|apply ctl_plc; auto| |].
    - rewrite idx_id by lia. intros Q. symmetry in Q. revert Q. apply nxc_plc; auto.
    - intros i Hi'. rewrite idx_id by lia. intros Q. apply plc_inj in Q; auto. destruct Q as [Q _]. discriminate Q. }
  fold k2 in S2, N2.
  (* end *)
  destruct (sled_last_run w E Hctlp (po / 4) po HM (last (table_pieces ort) noprev) (s0 + 2408 * k1 + 2408 * k2) m2) as (m3 & S3 & F3); auto.
  { destruct (last_in (table_pieces ort) noprev) as [->|H]; [reflexivity|]. eapply pieces_len; eauto. }
  { lia. } { lia. }
  { replace (s0 + 2408 * k1 + 2408 * k2) with (s0 + 2408 * Z.of_nat (length (table_pieces prt) + length (table_pieces ort))) by lia.
    apply HP. unfold sled. rewrite nth_error_app2 by (rewrite sled_trigs_len; lia). rewrite sled_trigs_len.
    rewrite nth_error_app2 by (rewrite sled_trigs_len; lia). rewrite sled_trigs_len.
    replace (length (table_pieces prt) + length (table_pieces ort) - length (table_pieces prt) - length (table_pieces ort))%nat with 0%nat by lia.
    reflexivity. }
  exists m3. split.
  - eapply steps_trans; [exact S1|]. eapply steps_trans; [exact S2|].
    replace po with (s0 + 2408 * k1 + 2408 * k2 + 2408 + 4) by lia. exact S3.
  - intros a Ha Hda. rewrite HE, (idx_id (E - 1)) in Hda by lia.
    assert (O : forall B, blk B -> idx a <> nxc B /\ forall j, (j < packn)%nat -> idx a <> plc B j).
    { intros B HB. split.
      - intros Q. apply Ha. exists B. split; [exact HB|]. left. rewrite Q. pose proof (nxc_range B HB). rewrite idx_id; lia.
      - intros j Hj Q. apply Ha. exists B. split; [exact HB|]. right. exists j. split; auto. rewrite Q.
        pose proof (plc_range B j HB Hj). rewrite idx_id; lia. }
    rewrite F3 by auto. destruct (O mrgn B1) as [O1 O1']. destruct (O mrgn_ort B2) as [O2 O2'].
    rewrite F2, F1 by auto. unfold added, table_pieces.
    assert (Hd' : idx (E - 1) <> idx a) by (rewrite idx_id by lia; lia).
    rewrite !cnt_pieces by auto. unfold E. rewrite !cnt_hits by auto. rewrite u32_add_l. f_equal.
    change (vof (po / 4) po mrgn) with (po / 4). change (vof (po / 4) po mrgn_ort) with po. lia.
Qed.

(* ---------- the stored image ---------- *)
Lemma concat8 (acts : list (Z * Z)) rest j c d : (j < length acts)%nat -> (c < 8)%nat ->
  nth (8 * j + c) (concat (map act_img acts) ++ rest) 0 = nth c (act_img (nth j acts d)) 0.
Proof.
  revert j. induction acts as [|a acts IH]; intros j Hj Hc; [cbn in Hj; lia|].
  destruct j as [|j].
  - rewrite Nat.mul_0_r, Nat.add_0_l. cbn [map concat nth]. rewrite <- app_assoc, app_nth1 by (cbn [length act_img]; lia). reflexivity.
  - replace (8 * S j + c)%nat with (8 + (8 * j + c))%nat by lia.
    change (nth (8 + (8 * j + c)) (concat (map act_img (a :: acts)) ++ rest) 0) with (nth (8 * j + c) (concat (map act_img acts) ++ rest) 0).
    cbn [length] in Hj. rewrite IH by lia. reflexivity.
Qed.
Lemma concat8_len acts : length (concat (map act_img acts)) = (8 * length acts)%nat.
Proof. induction acts as [|a acts IH]; [reflexivity|]. cbn [map concat]. rewrite app_length, IH. cbn [length act_img]. lia. Qed.
Lemma trig_img_len nx acts : (length acts <= 64)%nat -> length (trig_img nx acts) = 602%nat.
Proof. intros. unfold trig_img. rewrite !app_length, !repeat_length, concat8_len. cbn [length]. lia. Qed.
Lemma nth_zeros n k : nth n (repeat 0 k) 0 = 0.
Proof. revert n. induction k; intros [|n]; cbn [repeat nth]; auto. Qed.

Lemma trig_img_shift nx acts i : nth (82 + i) (trig_img nx acts) 0 =
  nth i (concat (map act_img acts) ++ repeat 0 (8 * (64 - length acts)) ++ [4; 0; 0; 0; 0; 256; 0; 0]) 0.
Proof. reflexivity. Qed.
Lemma trig_img_act nx acts j c d : (j < length acts)%nat -> (c < 8)%nat ->
  nth (82 + (8 * j + c)) (trig_img nx acts) 0 = nth c (act_img (nth j acts d)) 0.
Proof. intros. rewrite trig_img_shift. apply concat8; auto. Qed.
Lemma trig_img_gap nx acts i : (8 * length acts <= i < 512)%nat -> nth (82 + i) (trig_img nx acts) 0 = 0.
Proof.
  intros H. rewrite trig_img_shift, app_nth2 by (rewrite concat8_len; lia).
  rewrite app_nth1 by (rewrite repeat_length, concat8_len; lia). apply nth_zeros.
Qed.
Lemma trig_img_flags nx acts : (length acts <= 64)%nat -> nth 594 (trig_img nx acts) 0 = 4.
Proof.
  intros H. change 594%nat with (82 + 512)%nat. rewrite trig_img_shift, app_nth2 by (rewrite concat8_len; lia).
  rewrite app_nth2 by (rewrite repeat_length, concat8_len; lia). rewrite repeat_length, concat8_len.
  replace (512 - 8 * length acts - 8 * (64 - length acts))%nat with 0%nat by lia. reflexivity.
Qed.

Section Match.
Variables (prot : Z -> bool) (m0 : mem).
Lemma acts_match_pt b acts : forall n s,
  (forall j a, nth_error acts j = Some a -> act_matches prot m0 (raw_act b (Z.of_nat (s + j))) a) ->
  (length acts < n)%nat ->
  (exists a, a_w6 (raw_act b (Z.of_nat (s + length acts))) = Mem a /\ prot (idx a) = true /\ act_type (get m0 a) = 0) ->
  acts_match prot m0 (map (raw_act b) (map Z.of_nat (seq s n))) acts.
Proof.
  induction acts as [|c acts IH]; intros n s Hp Hn Ht.
  - destruct n as [|n]; [cbn in Hn; lia|]. cbn [seq map acts_match]. cbn [length] in Ht. rewrite Nat.add_0_r in Ht. exact Ht.
  - destruct n as [|n]; [cbn in Hn; lia|]. cbn [seq map acts_match]. split.
    + specialize (Hp 0%nat c eq_refl). rewrite Nat.add_0_r in Hp. exact Hp.
    + apply IH.
      * intros j a Hj. replace (S s + j)%nat with (s + S j)%nat by lia. apply Hp. exact Hj.
      * cbn [length] in Hn. lia.
      * cbn [length] in Ht. replace (S s + length acts)%nat with (s + S (length acts))%nat by lia. exact Ht.
Qed.

Lemma img_matches b nx acts : (length acts < 64)%nat ->
  (forall i, (i < 602)%nat -> prot (idx (b + Z.of_nat i)) = true /\ get m0 (b + Z.of_nat i) = nth i (trig_img nx acts) 0) ->
  trig_matches prot m0 b (mktrig [] (map (fun a => SetM (fst a) Add (snd a)) acts) (Imm nx) (Imm 4)).
Proof.
  intros Hl H. unfold trig_matches, raw_trig. cbn [t_conds t_acts t_next t_flags].
  assert (H' : forall i a, (i < 602)%nat -> a = b + Z.of_nat i -> prot (idx a) = true /\ get m0 a = nth i (trig_img nx acts) 0)
    by (intros i a Hi ->; auto).
  split; [|split; [|split]].
  - change (zseq 16) with (0 :: map Z.of_nat (seq 1 15)). cbn [map conds_match]. eexists. split; [reflexivity|].
    destruct (H' 5%nat (b + 2 + 5 * 0 + 3)) as [Q1 Q2]; [lia|lia|]. split; auto. rewrite Q2. reflexivity.
  - apply acts_match_pt.
    + intros j a Hj. rewrite Nat.add_0_l. rewrite nth_error_map in Hj.
      destruct (nth_error acts j) as [[p v]|] eqn:Ej; [|discriminate]. injection Hj as <-.
      assert (Hjl : (j < length acts)%nat) by (apply nth_error_Some; congruence).
      assert (F : forall c a, (c < 8)%nat -> a = b + 82 + 8 * Z.of_nat j + Z.of_nat c ->
                prot (idx a) = true /\ get m0 a = nth c (act_img (p, v)) 0).
      { intros c a Hc ->. destruct (H' (82 + (8 * j + c))%nat (b + 82 + 8 * Z.of_nat j + Z.of_nat c)) as [Q1 Q2]; [lia|lia|].
        split; auto. rewrite Q2, (trig_img_act nx acts j c (p, v)) by auto.
        rewrite (nth_error_nth acts j (p, v) Ej). reflexivity. }
      unfold act_matches, raw_act, SetM, SetD. cbn [a_mask a_dest a_val a_w6 a_w7 op_matches fst snd].
      repeat split; (destruct (F 0%nat (b + 82 + 8 * Z.of_nat j)) as [A1 A2]; [lia|lia|];
        destruct (F 4%nat (b + 82 + 8 * Z.of_nat j + 4)) as [B1 B2]; [lia|lia|];
        destruct (F 5%nat (b + 82 + 8 * Z.of_nat j + 5)) as [C1 C2]; [lia|lia|];
        destruct (F 6%nat (b + 82 + 8 * Z.of_nat j + 6)) as [D1 D2]; [lia|lia|];
        destruct (F 7%nat (b + 82 + 8 * Z.of_nat j + 7)) as [E1 E2]; [lia|lia|]; try assumption).
    + rewrite map_length. exact Hl.
    + rewrite map_length, Nat.add_0_l. eexists. split; [reflexivity|].
      destruct (H' (82 + (8 * length acts + 6))%nat (b + 82 + 8 * Z.of_nat (length acts) + 6)) as [Q1 Q2]; [lia|lia|].
      split; auto. rewrite Q2, trig_img_gap by lia. reflexivity.
  - cbn [op_matches]. destruct (H' 1%nat (b + 1)) as [Q1 Q2]; [lia|lia|]. split; auto.
  - cbn [op_matches]. destruct (H' 594%nat (b + 594)) as [Q1 Q2]; [lia|lia|]. split; auto. rewrite Q2. apply trig_img_flags. lia.
Qed.
End Match.

Lemma xors_nth a b i : length a = length b -> nth i (xors a b) 0 = Z.lxor (nth i a 0) (nth i b 0).
Proof.
  revert b i. induction a as [|x a IH]; intros [|y b] i H; try discriminate H.
  - destruct i; reflexivity.
  - destruct i; cbn [xors nth]; [reflexivity|]. apply IH. cbn in H. lia.
Qed.
(* which of the two triggers a dword of the location section belongs to *)
Lemma mrgn_img_nth n1 n2 pl v1 v2 i : nth i (mrgn_img n1 n2 pl v1 v2) 0 =
  Z.lxor (nth i (trig_img n1 (mrgn_acts mrgn pl v1)) 0) (if (i <? 209)%nat then 0 else nth (i - 209) (trig_img n2 (mrgn_acts mrgn_ort pl v2)) 0).
Proof.
  unfold mrgn_img. rewrite xors_nth.
  - f_equal.
    + destruct (le_lt_dec 602 i).
      * rewrite app_nth2, nth_zeros by (rewrite trig_img_len; cbn; lia). symmetry. apply nth_overflow. rewrite trig_img_len; cbn; lia.
      * apply app_nth1. rewrite trig_img_len; cbn; lia.
    + destruct (Nat.ltb_spec i 209).
      * rewrite app_nth1 by (rewrite repeat_length; lia). apply nth_zeros.
      * rewrite app_nth2 by (rewrite repeat_length; lia). rewrite repeat_length. reflexivity.
  - rewrite !app_length, !repeat_length, !trig_img_len by (cbn; lia). lia.
Qed.

Lemma mrgn_img_1 n1 n2 pl v1 v2 i : (i <= 209 \/ 211 <= i < 291 \/ i = 594)%nat ->
  nth i (mrgn_img n1 n2 pl v1 v2) 0 = nth i (trig_img n1 (mrgn_acts mrgn pl v1)) 0.
Proof.
  intros H. rewrite mrgn_img_nth. destruct (Nat.ltb_spec i 209) as [L|L]; [apply Z.lxor_0_r|].
  replace (nth (i - 209) _ 0) with 0; [apply Z.lxor_0_r|]. symmetry.
  destruct H as [H|[H|H]].
  - replace (i - 209)%nat with 0%nat by lia. reflexivity.
  - replace (i - 209)%nat with (2 + (i - 211))%nat by lia. unfold trig_img.
    change (nth (i - 211) (repeat 0 80 ++ concat (map act_img (mrgn_acts mrgn_ort pl v2)) ++ repeat 0 (8 * (64 - length (mrgn_acts mrgn_ort pl v2))) ++ [4; 0; 0; 0; 0; 256; 0; 0]) 0 = 0).
    rewrite app_nth1 by (rewrite repeat_length; lia). apply nth_zeros.
  - subst i. change (594 - 209)%nat with (82 + 303)%nat. apply trig_img_gap. cbn [length mrgn_acts repeat packn app]. lia.
Qed.
Lemma mrgn_img_2 n1 n2 pl v1 v2 i : (1 <= i < 385 \/ i = 594)%nat ->
  nth (209 + i) (mrgn_img n1 n2 pl v1 v2) 0 = nth i (trig_img n2 (mrgn_acts mrgn_ort pl v2)) 0.
Proof.
  intros H. rewrite mrgn_img_nth. destruct (Nat.ltb_spec (209 + i) 209) as [L|L]; [lia|].
  replace (209 + i - 209)%nat with i by lia.
  replace (nth (209 + i) _ 0) with 0; [apply Z.lxor_0_l|]. symmetry.
  destruct H as [H|H].
  - replace (209 + i)%nat with (82 + (127 + i))%nat by lia. apply trig_img_gap. cbn [length mrgn_acts repeat packn app]. lia.
  - subst i. apply nth_overflow. rewrite trig_img_len; cbn [length mrgn_acts repeat packn app]; lia.
Qed.

Definition needed (i : nat) : Prop := (1 <= i <= 209 \/ 211 <= i < 217 \/ i = 594)%nat.
Lemma not_ctl B i : blk B -> needed i -> i <> 1%nat -> (forall j, (j < packn)%nat -> i <> (86 + 8 * j)%nat) -> ~ ctl (B + Z.of_nat i).
Proof.
  intros HB Hn H1 Hj (B' & HB' & Hc). pose proof (nxc_range B' HB') as Rn.
  pose proof (blk_val B HB) as V. pose proof (blk_val B' HB') as V'.
  rewrite idx_id in Hc by (unfold needed in Hn; lia). destruct Hc as [Hc|(j & Hjp & Hc)].
  - rewrite idx_id in Hc by lia. unfold nxc, needed in *. lia.
  - pose proof (plc_range B' j HB' Hjp). rewrite idx_id in Hc by lia. specialize (Hj j Hjp). unfold plc, needed, packn in *. lia.
Qed.

Lemma mrgn_matches prot m0 B pl v nx : blk B ->
  (forall i, needed i -> get m0 (B + Z.of_nat i) = nth i (trig_img nx (mrgn_acts B pl v)) 0) ->
  (forall i, needed i -> ~ ctl (B + Z.of_nat i) -> prot (idx (B + Z.of_nat i)) = true) ->
  trig_matches prot m0 B (mrgn_trig B v).
Proof.
  intros HB H Hp. unfold trig_matches, raw_trig, mrgn_trig. cbn [t_conds t_acts t_next t_flags].
  assert (H' : forall i a, needed i -> i <> 1%nat -> (forall j, (j < packn)%nat -> i <> (86 + 8 * j)%nat) -> a = B + Z.of_nat i ->
     prot (idx a) = true /\ get m0 a = nth i (trig_img nx (mrgn_acts B pl v)) 0).
  { intros i a Hi H1 Hj ->. split; auto. apply Hp; auto. apply not_ctl; auto. }
  split; [|split; [|split]].
  - change (zseq 16) with (0 :: map Z.of_nat (seq 1 15)). cbn [map conds_match]. eexists. split; [reflexivity|].
    destruct (H' 5%nat (B + 2 + 5 * 0 + 3)) as [Q1 Q2]; try (unfold needed, packn; lia). split; auto. rewrite Q2. reflexivity.
  - apply acts_match_pt.
    + intros j a Hj. rewrite Nat.add_0_l.
      assert (F : forall c x, (c < 8)%nat -> (j <= 15)%nat -> (j = 15 \/ c <> 4)%nat -> x = B + 82 + 8 * Z.of_nat j + Z.of_nat c ->
                prot (idx x) = true /\ get m0 x = nth c (act_img (nth j (mrgn_acts B pl v) (0, 0))) 0).
      { intros c x Hc Hl Hq ->. destruct (H' (82 + (8 * j + c))%nat (B + 82 + 8 * Z.of_nat j + Z.of_nat c)) as [Q1 Q2];
          try (unfold needed, packn; lia).
        split; auto. rewrite Q2. apply trig_img_act; auto. cbn [length mrgn_acts repeat packn app]. lia. }
      destruct (le_lt_dec packn j) as [L|L].
      * rewrite nth_error_app2 in Hj by (rewrite map_length, seq_length; auto). rewrite map_length, seq_length in Hj.
        destruct (j - packn)%nat as [|z] eqn:Ez; [|destruct z; discriminate Hj]. cbn [nth_error] in Hj. injection Hj as <-.
        assert (j = 15%nat) by (unfold packn in *; lia). subst j. clear L Ez.
        unfold act_matches, raw_act, SetM, SetD. cbn [a_mask a_dest a_val a_w6 a_w7 op_matches].
        pose proof (F 0%nat (B + 82 + 8 * Z.of_nat 15) ltac:(lia) ltac:(lia) ltac:(lia) ltac:(lia)).
        pose proof (F 4%nat (B + 82 + 8 * Z.of_nat 15 + 4) ltac:(lia) ltac:(lia) ltac:(lia) ltac:(lia)).
        pose proof (F 5%nat (B + 82 + 8 * Z.of_nat 15 + 5) ltac:(lia) ltac:(lia) ltac:(lia) ltac:(lia)).
        pose proof (F 6%nat (B + 82 + 8 * Z.of_nat 15 + 6) ltac:(lia) ltac:(lia) ltac:(lia) ltac:(lia)).
        pose proof (F 7%nat (B + 82 + 8 * Z.of_nat 15 + 7) ltac:(lia) ltac:(lia) ltac:(lia) ltac:(lia)).
        repeat split; tauto.
      * rewrite nth_error_app1 in Hj by (rewrite map_length, seq_length; auto).
        rewrite nth_error_map, (nth_error_nth' _ 0%nat), seq_nth in Hj by (rewrite ?seq_length; auto).
        cbn [option_map] in Hj. rewrite Nat.add_0_l in Hj. injection Hj as <-.
        assert (Hn : nth j (mrgn_acts B pl v) (0, 0) = (pl, v)).
        { unfold mrgn_acts. rewrite app_nth1 by (rewrite repeat_length; auto).
          destruct (nth_in_or_default j (repeat (pl, v) packn) (0, 0)) as [I|I].
          - apply repeat_spec in I. exact I.
          - apply (repeat_spec packn (pl, v)), nth_In. rewrite repeat_length. auto. }
        rewrite Hn in F. unfold packn in L.
        unfold act_matches, raw_act, SetD. cbn [a_mask a_dest a_val a_w6 a_w7 op_matches].
        pose proof (F 0%nat (B + 82 + 8 * Z.of_nat j) ltac:(lia) ltac:(lia) ltac:(lia) ltac:(lia)).
        pose proof (F 5%nat (B + 82 + 8 * Z.of_nat j + 5) ltac:(lia) ltac:(lia) ltac:(lia) ltac:(lia)).
        pose proof (F 6%nat (B + 82 + 8 * Z.of_nat j + 6) ltac:(lia) ltac:(lia) ltac:(lia) ltac:(lia)).
        pose proof (F 7%nat (B + 82 + 8 * Z.of_nat j + 7) ltac:(lia) ltac:(lia) ltac:(lia) ltac:(lia)).
        split; [tauto|]. split; [f_equal; unfold plc; lia|]. repeat split; tauto.
    + rewrite app_length, map_length, seq_length. cbn [length]; unfold packn; lia.
    + rewrite app_length, map_length, seq_length, Nat.add_0_l. exists (B + 82 + 8 * Z.of_nat (packn + 1) + 6). split; [reflexivity|].
      destruct (H' 216%nat (B + 82 + 8 * Z.of_nat (packn + 1) + 6)) as [Q1 Q2]; try (unfold needed, packn; lia).
      split; [exact Q1|]. rewrite Q2. change 216%nat with (82 + 134)%nat. rewrite trig_img_gap; [reflexivity|].
      cbn [length mrgn_acts repeat packn app]. lia.
  - cbn [op_matches]. reflexivity.
  - cbn [op_matches]. destruct (H' 594%nat (B + 594)) as [Q1 Q2]; try (unfold needed, packn; lia). split; [exact Q1|].
    rewrite Q2. apply (trig_img_flags nx (mrgn_acts B pl v)). cbn [length mrgn_acts repeat packn app]. lia.
Qed.

(* the program and its text *)
Definition ctlb (i : Z) : bool :=
  existsb (fun B => (i =? nxc B) || existsb (fun j => i =? plc B j) (seq 0 packn)) [mrgn; mrgn_ort].
Lemma ctlb_spec a : ctlb (idx a) = true <-> ctl a.
Proof.
  unfold ctlb, ctl. rewrite existsb_exists. split.
  - intros (B & HB & H). assert (HB' : blk B) by (destruct HB as [<-|[<-|[]]]; [left|right]; reflexivity).
    exists B. split; [exact HB'|]. apply orb_true_iff in H. destruct H as [H|H].
    + left. pose proof (nxc_range B HB'). rewrite (idx_id (nxc B)) by lia. lia.
    + right. apply existsb_exists in H. destruct H as (j & Hj & H). apply in_seq in Hj. exists j. split; [lia|].
      pose proof (plc_range B j HB' ltac:(lia)). rewrite (idx_id (plc B j)) by lia. lia.
  - intros (B & HB & H). exists B. split; [destruct HB as [->| ->]; cbn [In]; auto|]. apply orb_true_iff.
    destruct H as [H|(j & Hj & H)].
    + left. pose proof (nxc_range B HB). rewrite (idx_id (nxc B)) in H by lia. lia.
    + right. apply existsb_exists. exists j. split; [apply in_seq; lia|].
      pose proof (plc_range B j HB Hj). rewrite (idx_id (plc B j)) in H by lia. lia.
Qed.

Lemma sled_imgs_nth B ps : forall prev i t, nth_error (sled_trigs B prev ps) i = Some t ->
  exists acts nx, nth_error (sled_imgs B prev ps) i = Some (trig_img nx acts) /\ length acts = packn /\
    t = mktrig [] (map (fun a => SetM (fst a) Add (snd a)) acts) (Imm nx) (Imm 4).
Proof.
  induction ps as [|p ps IH]; intros prev i t H; [destruct i; discriminate H|].
  destruct i as [|i].
  - cbn [sled_trigs nth_error] in H. injection H as <-. exists (sled_acts B prev p), (pa B). split; [reflexivity|]. split.
    + unfold sled_acts. rewrite map_length, seq_length. reflexivity.
    + unfold sled_trig, sled_acts. rewrite map_map. reflexivity.
  - exact (IH p i t H).
Qed.
Lemma sled_imgs_len B ps : forall prev, length (sled_imgs B prev ps) = length ps.
Proof. induction ps; intros; cbn [sled_imgs length]; auto. Qed.
Definition sled_list (prt ort : list Z) : list (list Z) :=
  sled_imgs mrgn noprev (table_pieces prt) ++ sled_imgs mrgn_ort noprev (table_pieces ort) ++
          [trig_img (pa mrgn_ort) (last_acts (last (table_pieces ort) noprev))].
Lemma sled_nth prt ort i t : nth_error (sled prt ort) i = Some t ->
  exists acts nx, nth_error (sled_list prt ort) i = Some (trig_img nx acts) /\ (length acts < 64)%nat /\
    t = mktrig [] (map (fun a => SetM (fst a) Add (snd a)) acts) (Imm nx) (Imm 4).
Proof.
  unfold sled, sled_list. intros H.
  destruct (le_lt_dec (length (table_pieces prt)) i) as [L|L].
  - rewrite nth_error_app2 in H |- * by (rewrite ?sled_trigs_len, ?sled_imgs_len; auto). rewrite sled_trigs_len in H. rewrite sled_imgs_len.
    set (k := (i - length (table_pieces prt))%nat) in *.
    destruct (le_lt_dec (length (table_pieces ort)) k) as [L2|L2].
    + rewrite nth_error_app2 in H |- * by (rewrite ?sled_trigs_len, ?sled_imgs_len; auto). rewrite sled_trigs_len in H. rewrite sled_imgs_len.
      destruct (k - length (table_pieces ort))%nat as [|z]; [|destruct z; discriminate H].
      cbn [nth_error] in *. injection H as <-. do 2 eexists. split; [reflexivity|]. split.
      * unfold last_acts. rewrite app_length, map_length, seq_length. cbn [length]; unfold packn; lia.
      * unfold sled_last, last_acts. rewrite map_app, map_map. reflexivity.
    + rewrite nth_error_app1 in H |- * by (rewrite ?sled_trigs_len, ?sled_imgs_len; auto).
      destruct (sled_imgs_nth _ _ _ _ _ H) as (acts & nx & Q1 & Q2 & Q3). exists acts, nx. split; auto. split; auto. rewrite Q2. unfold packn. lia.
  - rewrite nth_error_app1 in H |- * by (rewrite ?sled_trigs_len, ?sled_imgs_len; auto).
    destruct (sled_imgs_nth _ _ _ _ _ H) as (acts & nx & Q1 & Q2 & Q3). exists acts, nx. split; auto. split; auto. rewrite Q2. unfold packn. lia.
Qed.
Lemma sled_list_602 prt ort l : In l (sled_list prt ort) -> length l = 602%nat.
Proof.
  assert (G : forall B ps prev, In l (sled_imgs B prev ps) -> length l = 602%nat).
  { intros B. induction ps as [|p ps IH]; intros prev; [contradiction|]. cbn [sled_imgs In]. intros [<-|H]; [|eauto].
    apply trig_img_len. unfold sled_acts. rewrite map_length, seq_length. unfold packn. lia. }
  unfold sled_list. intros H. apply in_app_iff in H. destruct H as [H|H]; [eauto|]. apply in_app_iff in H. destruct H as [H|[<-|[]]]; [eauto|].
  apply trig_img_len. unfold last_acts. rewrite app_length, map_length, seq_length. cbn [length]; unfold packn; lia.
Qed.
Lemma concat_602 (L : list (list Z)) i l q : (forall l, In l L -> length l = 602%nat) -> nth_error L i = Some l -> (q < 602)%nat ->
  nth (602 * i + q) (concat L) 0 = nth q l 0.
Proof.
  revert i. induction L as [|x L IH]; intros i Hl Hn Hq; [destruct i; discriminate Hn|].
  destruct i as [|i]; cbn [concat].
  - cbn [nth_error] in Hn. injection Hn as ->. rewrite Nat.mul_0_r, Nat.add_0_l. apply app_nth1. rewrite Hl by (left; auto). auto.
  - rewrite app_nth2 by (rewrite (Hl x) by (left; auto); lia). rewrite (Hl x) by (left; auto).
    replace (602 * S i + q - 602)%nat with (602 * i + q)%nat by lia. apply IH; auto. intros; apply Hl; right; auto.
Qed.

(* Nothing but the bytes: with the two sections loaded, the engine's own reading of
   memory as triggers, started at the sled, reaches the payload. *)
Theorem C50_image : forall len prt ort m,
  let po := payload_offset len prt ort in
  let s0 := strsled_offset len in
  0 <= len -> po < 2^32 ->
  (forall x, In x (prt ++ ort) -> 0 <= x /\ po + x < 2^32) ->
  (forall i, (i < 811)%nat -> get m (mrgn + Z.of_nat i) = nth i (mrgn_section len prt ort) 0) ->
  (forall i, (i < length (sled_img prt ort))%nat -> get m (epd_of s0 + Z.of_nat i) = nth i (sled_img prt ort) 0) ->
  exists m', steps RawP (fun _ => false) (s0, m) (po, m') /\
    forall a, ~ ctl a -> idx a <> idx (epd_of (po - 4)) ->
      get m' a = u32 (get m a + hits po prt a * (po / 4) + hits po ort a * po).
Proof.
  intros len prt ort m po s0 Hlen Hpo Htab HMi HSi.
  set (n := length (sled prt ort)).
  assert (Ep : po = s0 + 2408 * Z.of_nat n + 4) by reflexivity.
  assert (Hs : s0 mod 4 = 0 /\ 0x191943C8 <= s0).
  { unfold s0, strsled_offset. clear - Hlen. Z.div_mod_to_equations. lia. }
  destruct Hs as [Hs4 Hs].
  assert (Es : epd_of s0 * 4 = s0 - 0x58A364) by (unfold epd_of; clear - Hs4; Z.div_mod_to_equations; lia).
  assert (Epo : epd_of po = epd_of s0 + 602 * Z.of_nat n + 1) by (rewrite Ep; unfold epd_of in *; clear - Es; Z.div_mod_to_equations; lia).
  assert (Epd : epd_of (po - 4) = epd_of s0 + 602 * Z.of_nat n) by (rewrite Ep; unfold epd_of in *; clear - Es; Z.div_mod_to_equations; lia).
  set (prot := fun i => ((epd_of s0 <=? i) && (i <? epd_of s0 + 602 * Z.of_nat n)) || ((mrgn <=? i) && (i <? mrgn + 811) && negb (ctlb i))).
  set (P := fun pc => if pc =? pa mrgn then Some (mrgn_trig mrgn (po / 4)) else if pc =? pa mrgn_ort then Some (mrgn_trig mrgn_ort po)
             else if (s0 <=? pc) && ((pc - s0) mod 2408 =? 0) then nth_error (sled prt ort) (Z.to_nat ((pc - s0) / 2408)) else None).
  assert (Rm : pa mrgn = 0x58DC60) by reflexivity. assert (Rmo : pa mrgn_ort = 0x58DC60 + 836) by reflexivity.
  assert (Rs : 5000 <= epd_of s0 /\ epd_of s0 + 602 * Z.of_nat n < 2^30) by lia.
  assert (Vm : mrgn = 3647) by reflexivity. assert (Vmo : mrgn_ort = 3856) by reflexivity.
  assert (Ll : length (sled_img prt ort) = (602 * n)%nat).
  { unfold sled_img. fold (sled_list prt ort).
    assert (G : forall L : list (list Z), (forall l, In l L -> length l = 602%nat) -> length (concat L) = (602 * length L)%nat).
    { induction L as [|x L IH]; intros HL; [reflexivity|]. cbn [concat length].
      rewrite app_length, IH by (intros; apply HL; right; auto). rewrite (HL x) by (left; auto). lia. }
    rewrite G by apply sled_list_602. f_equal. unfold sled_list, n, sled.
    rewrite !app_length, !sled_imgs_len, !sled_trigs_len. reflexivity. }
  destruct (C50_start_up (mkworld P prot []) len prt ort m) as (m' & R1 & R2); auto.
  - intros i t Hi. cbn [W_P]. unfold P.
    assert (Hin : (i < n)%nat) by (apply nth_error_Some; congruence). fold s0.
    destruct (Z.eqb_spec (s0 + 2408 * Z.of_nat i) (pa mrgn)) as [Q|_]; [lia|].
    destruct (Z.eqb_spec (s0 + 2408 * Z.of_nat i) (pa mrgn_ort)) as [Q|_]; [lia|].
    replace (s0 + 2408 * Z.of_nat i - s0) with (Z.of_nat i * 2408) by lia.
    rewrite Z.mod_mul, Z.div_mul, Nat2Z.id by lia. destruct (Z.leb_spec s0 (s0 + 2408 * Z.of_nat i)); [exact Hi|lia].
  - assert (M1 : forall i, (i <= 209 \/ 211 <= i < 291 \/ i = 594)%nat -> get m (mrgn + Z.of_nat i) = nth i (trig_img s0 (mrgn_acts mrgn (epd_of (po - 4)) (po / 4))) 0).
    { intros i Hi. rewrite HMi by lia. unfold mrgn_section. fold po s0. apply mrgn_img_1. auto. }
    assert (M2 : forall i, (1 <= i < 385 \/ i = 594)%nat -> get m (mrgn_ort + Z.of_nat i) = nth i (trig_img (s0 + 2408 * Z.of_nat (length (table_pieces prt))) (mrgn_acts mrgn_ort (epd_of (po - 4)) po)) 0).
    { intros i Hi. replace (mrgn_ort + Z.of_nat i) with (mrgn + Z.of_nat (209 + i)) by (unfold mrgn_ort; lia).
      rewrite HMi by lia. unfold mrgn_section. fold po s0. apply mrgn_img_2. auto. }
    assert (Pn : forall B pl v nx, nth 1 (trig_img nx (mrgn_acts B pl v)) 0 = u32 nx) by reflexivity.
    assert (Lp : (length (table_pieces prt) <= n)%nat) by (unfold n, sled; rewrite app_length, sled_trigs_len; lia).
    assert (Pa : forall j B pl v nx, (j < packn)%nat -> nth (82 + (8 * j + 4)) (trig_img nx (mrgn_acts B pl v)) 0 = u32 pl).
    { intros j B pl v nx Hj. rewrite (trig_img_act _ _ _ _ (pl, v)); [|cbn [length mrgn_acts repeat packn app]; unfold packn in Hj; lia|lia].
      unfold mrgn_acts. rewrite app_nth1 by (rewrite repeat_length; auto). rewrite nth_repeat. reflexivity. }
    split.
    + specialize (M1 1%nat ltac:(lia)). rewrite Pn, u32_small in M1 by lia. exact M1.
    + specialize (M2 1%nat ltac:(lia)). rewrite Pn, u32_small in M2 by lia. exact M2.
    + intros B j HB Hj. fold po. rewrite <- (u32_small (epd_of (po - 4))) by lia.
      unfold packn in Hj. destruct HB as [->| ->].
      * specialize (M1 (82 + (8 * j + 4))%nat ltac:(lia)). rewrite Pa in M1 by exact Hj. rewrite <- M1. f_equal. unfold plc. lia.
      * specialize (M2 (82 + (8 * j + 4))%nat ltac:(lia)). rewrite Pa in M2 by exact Hj. rewrite <- M2. f_equal. unfold plc. lia.
  - intros a Ha. cbn [W_prot]. unfold prot. pose proof (ctl_low a Ha). apply ctlb_spec in Ha. rewrite Ha. lia.
  - cbn [W_prot]. fold po. rewrite Epd, idx_id by lia. unfold prot. lia.
  - intros x Hx. cbn [W_prot]. fold po. destruct (Htab x Hx) as [X1 X2].
    assert (E : epd_of po <= epd_of (po + x) < 2^30) by (unfold epd_of; clear - X1 X2 Ep Hs; Z.div_mod_to_equations; lia).
    rewrite idx_id by lia. unfold prot. lia.
  - exists m'. split; [|exact R2].
    refine (proj1 (steps_refine prot m P _ _ _ R1 _)); [|intros a _; reflexivity].
    intros pc t HP. unfold P in HP.
    assert (HMgen : forall B pl v nx, blk B -> (forall i, needed i -> get m (B + Z.of_nat i) = nth i (trig_img nx (mrgn_acts B pl v)) 0) ->
               trig_matches prot m B (mrgn_trig B v)).
    { intros B pl v nx HB HH. apply mrgn_matches with (pl := pl) (nx := nx); auto.
      intros i Hi Hc. pose proof (blk_val B HB). rewrite <- ctlb_spec in Hc. unfold needed in Hi.
      assert (Q : ctlb (idx (B + Z.of_nat i)) = false) by (destruct (ctlb _); congruence).
      unfold prot. rewrite Q. rewrite idx_id by lia. lia. }
    destruct (Z.eqb_spec pc (pa mrgn)) as [->|_]; [|destruct (Z.eqb_spec pc (pa mrgn_ort)) as [->|_]; [|destruct (Z.leb_spec s0 pc) as [Hle|]; [destruct (Z.eqb_spec ((pc - s0) mod 2408) 0) as [Hm|]|]]]; try discriminate HP.
    + injection HP as <-. split; [reflexivity|]. change (epd_of (pa mrgn)) with mrgn.
      apply HMgen with (pl := epd_of (po - 4)) (nx := s0); [left; reflexivity|].
      intros i Hi. unfold needed in Hi. rewrite HMi by lia. unfold mrgn_section. fold po s0. apply mrgn_img_1. lia.
    + injection HP as <-. split; [reflexivity|]. change (epd_of (pa mrgn_ort)) with mrgn_ort.
      apply HMgen with (pl := epd_of (po - 4)) (nx := s0 + 2408 * Z.of_nat (length (table_pieces prt))); [right; reflexivity|].
      intros i Hi. unfold needed in Hi. replace (mrgn_ort + Z.of_nat i) with (mrgn + Z.of_nat (209 + i)) by (unfold mrgn_ort; lia).
      rewrite HMi by lia. unfold mrgn_section. fold po s0. apply mrgn_img_2. lia.
    + cbn [andb] in HP. set (k := Z.to_nat ((pc - s0) / 2408)) in *.
      assert (Hpc : pc = s0 + 2408 * Z.of_nat k).
      { unfold k. rewrite Z2Nat.id by (apply Z.div_pos; lia). clear - Hm. Z.div_mod_to_equations. lia. }
      assert (Hk : (k < n)%nat) by (apply nth_error_Some; congruence).
      clearbody k. split; [rewrite Hpc; clear - Hs4; Z.div_mod_to_equations; lia|].
      assert (Eb : epd_of pc = epd_of s0 + 602 * Z.of_nat k) by (rewrite Hpc; unfold epd_of in *; clear - Es; Z.div_mod_to_equations; lia).
      destruct (sled_nth _ _ _ _ HP) as (acts & nx & Q1 & Q2 & ->). apply img_matches; auto.
      intros i Hi. rewrite Eb.
      replace (epd_of s0 + 602 * Z.of_nat k + Z.of_nat i) with (epd_of s0 + Z.of_nat (602 * k + i)) by lia.
      split.
      * rewrite idx_id by nia. unfold prot. nia.
      * rewrite HSi by (rewrite Ll; nia). apply concat_602; auto. apply sled_list_602.
Qed.

(* ---------- second stage ---------- *)
Lemma hits_app base l1 l2 a : hits base (l1 ++ l2) a = hits base l1 a + hits base l2 a.
Proof. induction l1; cbn [app hits]; lia. Qed.
Lemma reloc_loop_spec orig db v : orig mod 4 = 0 -> 1 <= db -> forall tab fuel m,
  (length tab < fuel)%nat -> db + Z.of_nat (length tab) < 2^32 ->
  (forall i x, nth_error tab i = Some x -> get m (db + Z.of_nat i) = u32 (x / 4)) ->
  (forall i x, (i < length tab)%nat -> In x tab -> idx (epd_of (orig + x)) <> idx (db + Z.of_nat i)) ->
  exists m', reloc_loop fuel (Z.of_nat (length tab)) db (epd_of orig) v m = Some m' /\
    forall a, get m' a = u32 (get m a + hits orig tab a * v).
Proof.
  intros Ho Hdb tab. induction tab as [|x tab IH] using rev_ind; intros fuel m Hf Hb Ht Hd.
  - destruct fuel as [|f]; [cbn in Hf; lia|]. exists m. split; [reflexivity|]. intros a. cbn [hits].
    rewrite Z.mul_0_l, Z.add_0_r. symmetry. apply u32_small, get_range.
  - rewrite app_length in *. cbn [length] in *. destruct fuel as [|f]; [lia|]. cbn [reloc_loop].
    destruct (Z.leb_spec 1 (Z.of_nat (length tab + 1))) as [_|]; [|lia].
    rewrite u32_small by lia.
    replace (Z.of_nat (length tab + 1) + (db - 1)) with (db + Z.of_nat (length tab)) by lia.
    rewrite (Ht (length tab) x) by (rewrite nth_error_app2, Nat.sub_diag by lia; reflexivity).
    rewrite (u32_small db) by lia.
    replace (sub_sat (db + Z.of_nat (length tab)) db) with (Z.of_nat (length tab)) by (unfold sub_sat; lia).
    set (e := u32 (u32 (x / 4) + epd_of orig)).
    assert (He : idx e = idx (epd_of (orig + x))).
    { unfold e. rewrite u32_add_l, idx_u32. f_equal. unfold epd_of. clear - Ho. Z.div_mod_to_equations. lia. }
    destruct (IH f (upd m e (u32 (get m e + v)))) as (m' & Q1 & Q2).
    + lia.
    + lia.
    + intros i y Hi. assert (Hil : (i < length tab)%nat) by (apply nth_error_Some; congruence).
      rewrite get_upd_ne.
      * apply Ht. rewrite nth_error_app1; auto.
      * rewrite He. apply Hd; [lia|]. apply in_or_app. right. left. reflexivity.
    + intros i y Hi Hy. apply Hd; [lia|]. apply in_or_app. auto.
    + exists m'. split; [exact Q1|]. intros a. rewrite Q2, hits_app. cbn [hits]. rewrite <- He.
      destruct (Z.eqb_spec (idx e) (idx a)) as [E|E].
      * rewrite <- (get_cong (upd _ _ _) _ _ E), get_upd_eq, u32_idem, <- (get_cong m _ _ E), u32_add_l. f_equal. lia.
      * rewrite get_upd_ne by auto. f_equal. lia.
Qed.

(* after the second stage the inner payload is relocated to where it lies *)
Theorem C50_payload_reloc : forall orig prtdb ortdb prt ort fuel m,
  orig mod 4 = 0 -> 1 <= prtdb -> 1 <= ortdb ->
  prtdb + Z.of_nat (length prt) < 2^32 -> ortdb + Z.of_nat (length ort) < 2^32 ->
  (length prt < fuel)%nat -> (length ort < fuel)%nat ->
  (forall i x, nth_error prt i = Some x -> get m (prtdb + Z.of_nat i) = u32 (x / 4)) ->
  (forall i x, nth_error ort i = Some x -> get m (ortdb + Z.of_nat i) = u32 (x / 4)) ->
  (* the tables are outside the payload *)
  (forall i x, (i < length prt)%nat -> In x prt -> idx (epd_of (orig + x)) <> idx (prtdb + Z.of_nat i)) ->
  (forall i x, (i < length ort)%nat -> In x (prt ++ ort) -> idx (epd_of (orig + x)) <> idx (ortdb + Z.of_nat i)) ->
  exists m', payload_reloc fuel (length prt) (length ort) prtdb ortdb orig m = Some m' /\
    forall a, get m' a = u32 (get m a + hits orig prt a * (orig / 4) + hits orig ort a * orig).
Proof.
  intros orig prtdb ortdb prt ort fuel m Ho Hp Hq Hpb Hqb Hf1 Hf2 T1 T2 D1 D2. unfold payload_reloc.
  assert (exists m1, (if Nat.eqb (length prt) 0 then Some m else reloc_loop fuel (Z.of_nat (length prt)) prtdb (epd_of orig) (orig / 4) m) = Some m1 /\
    forall a, get m1 a = u32 (get m a + hits orig prt a * (orig / 4))) as (m1 & E1 & F1).
  { destruct prt as [|x prt].
    - exists m. split; [reflexivity|]. intros a. cbn [hits]. rewrite Z.mul_0_l, Z.add_0_r. symmetry. apply u32_small, get_range.
    - cbn [length Nat.eqb]. apply (reloc_loop_spec orig prtdb (orig / 4) Ho Hp (x :: prt)); auto. }
  rewrite E1.
  assert (N : forall i, (i < length ort)%nat -> hits orig prt (ortdb + Z.of_nat i) = 0).
  { intros i Hi. assert (D : forall x, In x prt -> idx (epd_of (orig + x)) <> idx (ortdb + Z.of_nat i)) by (intros; apply D2; auto; apply in_or_app; auto).
    clear - D. induction prt as [|x prt IH]; [reflexivity|]. cbn [hits].
    destruct (Z.eqb_spec (idx (epd_of (orig + x))) (idx (ortdb + Z.of_nat i))) as [E|_]; [exfalso; eapply D; [left; reflexivity|exact E]|].
    rewrite IH; [lia|]. intros y Hy. apply D. right. auto. }
  destruct ort as [|x ort].
  - exists m1. split; [reflexivity|]. intros a. rewrite F1. cbn [hits]. f_equal. lia.
  - cbn [length Nat.eqb]. destruct (reloc_loop_spec orig ortdb orig Ho Hq (x :: ort) fuel m1) as (m2 & E2 & F2); auto.
    + intros i y Hi. rewrite F1, N by (apply nth_error_Some; congruence).
      rewrite Z.mul_0_l, Z.add_0_r, (T2 i y Hi). apply u32_idem.
    + intros i y Hi Hy. apply D2; auto. apply in_or_app. auto.
    + exists m2. split; [exact E2|]. intros a. rewrite F2, F1, u32_add_l. f_equal.
Qed.

(* ---------- a concrete case: 17 quarter entries (two pieces), offset entries with a repetition ---------- *)
Definition ex_prt : list Z := map (fun k => 4 * Z.of_nat k) (seq 0 17).
Definition ex_ort : list Z := [8; 8; 100].
Definition ex_len : Z := 10.
Definition ex_load (mr sl : list Z) (s : Z) : mem := fun i =>
  if (mrgn <=? i) && (i <? mrgn + 811) then nth (Z.to_nat (i - mrgn)) mr 0
  else if (s <=? i) && (i <? s + Z.of_nat (length sl)) then nth (Z.to_nat (i - s)) sl 0 else 7.
Definition words (l : list Z) : bool := forallb (fun x => (0 <=? x) && (x <? 2^32)) l.
Lemma words_nth l i : words l = true -> u32 (nth i l 0) = nth i l 0.
Proof.
  intros H. apply u32_small. unfold words in H. rewrite forallb_forall in H.
  destruct (nth_in_or_default i l 0) as [I|I]; [specialize (H _ I); lia|rewrite I; lia].
Qed.
Lemma ex_load_1 mr sl s i : words mr = true -> (i < 811)%nat -> get (ex_load mr sl s) (mrgn + Z.of_nat i) = nth i mr 0.
Proof.
  intros Hw Hi. unfold get, ex_load. change mrgn with 3647. rewrite idx_id by lia.
  destruct (Z.leb_spec 3647 (3647 + Z.of_nat i)); [|lia]. destruct (Z.ltb_spec (3647 + Z.of_nat i) (3647 + 811)); [|lia]. cbn [andb].
  replace (Z.to_nat (3647 + Z.of_nat i - 3647)) with i by lia. apply words_nth. auto.
Qed.
Lemma ex_load_2 mr sl s i : words sl = true -> 5000 <= s -> s + Z.of_nat (length sl) < 2^30 -> (i < length sl)%nat ->
  get (ex_load mr sl s) (s + Z.of_nat i) = nth i sl 0.
Proof.
  intros Hw Hs Hb Hi. unfold get, ex_load. change mrgn with 3647. rewrite idx_id by lia.
  destruct (Z.ltb_spec (s + Z.of_nat i) (3647 + 811)); [lia|]. rewrite andb_false_r.
  destruct (Z.leb_spec s (s + Z.of_nat i)); [|lia]. destruct (Z.ltb_spec (s + Z.of_nat i) (s + Z.of_nat (length sl))); [|lia]. cbn [andb].
  replace (Z.to_nat (s + Z.of_nat i - s)) with i by lia. apply words_nth. auto.
Qed.
Example C50_image_case :
  let po := payload_offset ex_len ex_prt ex_ort in
  let m := ex_load (mrgn_section ex_len ex_prt ex_ort) (sled_img ex_prt ex_ort) (epd_of (strsled_offset ex_len)) in
  exists m', steps RawP (fun _ => false) (strsled_offset ex_len, m) (po, m') /\
    get m' (epd_of po + 2) = u32 (7 + po / 4 + 2 * po) /\ get m' (epd_of po + 16) = u32 (7 + po / 4) /\
    get m' (epd_of po + 25) = u32 (7 + po) /\ get m' (epd_of po + 17) = 7.
Proof.
  intros po m. destruct (C50_image ex_len ex_prt ex_ort m) as (m' & S & F).
  - unfold ex_len. lia.
  - vm_compute. reflexivity.
  - assert (H : forallb (fun x => (0 <=? x) && (payload_offset ex_len ex_prt ex_ort + x <? 2^32)) (ex_prt ++ ex_ort) = true) by (vm_compute; reflexivity).
    rewrite forallb_forall in H. intros x Hx. specialize (H x Hx). lia.
  - intros i Hi. apply ex_load_1; auto.
  - intros i Hi. apply ex_load_2; [vm_compute; reflexivity|vm_compute; discriminate|vm_compute; reflexivity|exact Hi].
  - exists m'. split; [exact S|].
    assert (G : forall k, 0 <= k < 30 -> get m (epd_of po + k) = 7 /\ ~ ctl (epd_of po + k) /\ idx (epd_of po + k) <> idx (epd_of (po - 4))).
    { intros k Hk.
      assert (V : idx (epd_of po + k) = epd_of po + k).
      { apply idx_id. assert (5000 <= epd_of po < 2^29) by (vm_compute; split; [discriminate|reflexivity]). lia. }
      assert (V2 : idx (epd_of (po - 4)) = epd_of po - 1) by (vm_compute; reflexivity).
      assert (V3 : 5000 <= epd_of po) by (vm_compute; discriminate).
      split; [|split].
      - unfold get, m, ex_load. rewrite V. change mrgn with 3647.
        destruct (Z.ltb_spec (epd_of po + k) (3647 + 811)); [lia|]. rewrite andb_false_r.
        destruct (Z.ltb_spec (epd_of po + k) (epd_of (strsled_offset ex_len) + Z.of_nat (length (sled_img ex_prt ex_ort)))) as [L|L].
        + assert (Q : epd_of (strsled_offset ex_len) + Z.of_nat (length (sled_img ex_prt ex_ort)) = epd_of po - 1) by (vm_compute; reflexivity). lia.
        + rewrite andb_false_r. reflexivity.
      - intros C. apply ctl_low in C. lia.
      - rewrite V, V2. lia. }
    assert (R : forall k, 0 <= k < 30 -> get m' (epd_of po + k) = u32 (7 + hits po ex_prt (epd_of po + k) * (po / 4) + hits po ex_ort (epd_of po + k) * po)).
    { intros k Hk. destruct (G k Hk) as (G1 & G2 & G3). fold po in F. rewrite F by auto. rewrite G1. reflexivity. }
    repeat split; rewrite R by lia; vm_compute; reflexivity.
Qed.
Example C50_payload_reloc_case :
  let tab := [0; 8; 8] in
  let m := (fun i => if i =? 1000 then 0 else if i =? 1001 then 2 else if i =? 1002 then 2 else 5) : mem in
  exists m', payload_reloc 10 3 1 1000 1001 0x600000 m = Some m' /\
    get m' (epd_of 0x600008) = u32 (5 + 2 * 0x180000 + 0x600000).
Proof.
  intros tab m. destruct (C50_payload_reloc 0x600000 1000 1001 tab [8] 10 m) as (m' & E & F); try (unfold tab; cbn [length]; lia); auto.
  - intros i x H. do 3 (destruct i as [|i]; [injection H as <-; reflexivity|]). destruct i; discriminate H.
  - intros i x H. destruct i as [|i]; [injection H as <-; reflexivity|]. destruct i; discriminate H.
  - intros i x Hi Hx. unfold tab in *. cbn [length] in Hi. rewrite (idx_id (1000 + Z.of_nat i)) by lia.
    destruct Hx as [<-|[<-|[<-|[]]]]; vm_compute idx; lia.
  - intros i x Hi Hx. unfold tab in *. cbn [length] in Hi. rewrite (idx_id (1001 + Z.of_nat i)) by lia.
    destruct Hx as [<-|[<-|[<-|[<-|[]]]]]; vm_compute idx; lia.
  - exists m'. split; [exact E|]. rewrite F. reflexivity.
Qed.

Print Assumptions C50_start_up.
Print Assumptions C50_image.
Print Assumptions C50_payload_reloc.
