(* Reasoning rules for the machine: memory laws, the two stock actions, the
   stock conditions, and single-trigger execution rules. *)
From Coq Require Import ZArith Lia Bool List.
From Verif Require Import Word Machine.
Import ListNotations.
Open Scope Z_scope.

(* ---------- memory ---------- *)
Lemma idx_u32 a : idx (u32 a) = idx a.
Proof.
  unfold idx, u32. change (2^32) with (2^30 * 4).
  rewrite Z.rem_mul_r by lia.
  rewrite (Z.mul_comm (2^30)). rewrite Z.mod_add by lia. apply Z.mod_mod. lia.
Qed.

Lemma get_range m a : 0 <= get m a < 2^32.
Proof. apply u32_range. Qed.

Lemma u32_get m a : u32 (get m a) = get m a.
Proof. apply u32_idem. Qed.

Lemma get_u32 m a : get m (u32 a) = get m a.
Proof. unfold get. rewrite idx_u32. reflexivity. Qed.

Lemma get_cong m a b : idx a = idx b -> get m a = get m b.
Proof. unfold get. intros ->. reflexivity. Qed.

Lemma upd_cong m a b v : idx a = idx b -> upd m a v = upd m b v.
Proof. unfold upd. intros ->. reflexivity. Qed.

Lemma upd_u32 m a v : upd m (u32 a) v = upd m a v.
Proof. apply upd_cong, idx_u32. Qed.

Lemma get_upd_eq m a v : get (upd m a v) a = u32 v.
Proof. unfold get, upd. rewrite Z.eqb_refl. reflexivity. Qed.

Lemma get_upd_ne m a b v : idx a <> idx b -> get (upd m a v) b = get m b.
Proof.
  intros H. unfold get, upd. destruct (Z.eqb_spec (idx b) (idx a)); [congruence|reflexivity].
Qed.

(* ---------- full-mask modifiers ---------- *)
Lemma ldiff_ones32 d : 0 <= d < 2^32 -> Z.ldiff d (Z.ones 32) = 0.
Proof.
  intros Hd. rewrite Z.ldiff_ones_r_low; [reflexivity|lia|].
  destruct (Z.eq_dec d 0) as [->|]; [cbn; lia|]. apply Z.log2_lt_pow2; lia.
Qed.

Lemma wset_full d v : 0 <= d < 2^32 -> wset (Z.ones 32) d v = u32 v.
Proof.
  intros Hd. unfold wset. rewrite land_ones32, ldiff_ones32 by auto. rewrite Z.lor_0_l. reflexivity.
Qed.
Lemma wadd_full d v : 0 <= d < 2^32 -> wadd (Z.ones 32) d v = u32 (d + v).
Proof.
  intros Hd. unfold wadd. rewrite !land_ones32, ldiff_ones32 by auto. rewrite Z.lor_0_l. u32norm. reflexivity.
Qed.
Lemma wsub_full d v : 0 <= d < 2^32 -> 0 <= v < 2^32 -> wsub (Z.ones 32) d v = Z.max 0 (d - v).
Proof.
  intros Hd Hv. unfold wsub. rewrite !land_ones32, ldiff_ones32 by auto. rewrite Z.lor_0_l.
  rewrite !u32_small by (rewrite ?u32_small; lia). reflexivity.
Qed.

(* the abstract modifiers *)
Inductive modifier := SetTo | Add | Subtract.
(* core/rawtrigger/constenc.py: SetTo 7, Add 8, Subtract 9 *)
Definition enc_mod (md : modifier) : Z := match md with SetTo => 7 | Add => 8 | Subtract => 9 end.
(* what a full-width modifier does to a dword *)
Definition do_mod (md : modifier) (d v : Z) : Z :=
  match md with SetTo => v | Add => u32 (d + v) | Subtract => Z.max 0 (d - v) end.
Definition do_modx (md : modifier) (k d v : Z) : Z :=
  match md with SetTo => wset k d v | Add => wadd k d v | Subtract => wsub k d v end.

Lemma do_mod_range md d v : 0 <= d < 2^32 -> 0 <= v < 2^32 -> 0 <= do_mod md d v < 2^32.
Proof. intros. destruct md; cbn [do_mod]; [lia|apply u32_range|lia]. Qed.

Lemma apply_mod_full md d v : 0 <= d < 2^32 -> 0 <= v < 2^32 ->
  apply_mod (enc_mod md) (Z.ones 32) d v = do_mod md d v.
Proof.
  intros. destruct md; unfold apply_mod; cbn [enc_mod do_mod Z.eqb Pos.eqb].
  - rewrite wset_full by auto. apply u32_small; auto.
  - apply wadd_full; auto.
  - apply wsub_full; auto.
Qed.
Lemma apply_mod_x md k d v : apply_mod (enc_mod md) k d v = do_modx md k d v.
Proof. destruct md; reflexivity. Qed.

Lemma do_modx_range md k d v : 0 <= k < 2^32 -> 0 <= d < 2^32 -> 0 <= v < 2^32 -> 0 <= do_modx md k d v < 2^32.
Proof.
  intros Hk Hd Hv. destruct md; cbn [do_modx]; unfold wset, wadd, wsub; apply lor_range; try lia;
    try (apply ldiff_range; lia); apply land_range; try lia.
  pose proof (land_range 32 d k). pose proof (land_range 32 v k). lia.
Qed.

Lemma do_modx_full md d v : 0 <= d < 2^32 -> 0 <= v < 2^32 -> do_modx md (Z.ones 32) d v = do_mod md d v.
Proof. intros. rewrite <- apply_mod_x. apply apply_mod_full; auto. Qed.

(* ---------- stock actions ---------- *)
(* dword 6 of an action: unitid | acttype<<16 | modifier<<24 *)
Definition w6 (md : modifier) : Z := 45 * 2^16 + enc_mod md * 2^24.
(* core/rawtrigger/stockact.py 673-684 and 856-864 (unit 0): player may be a cell *)
Definition SetD (d : operand) (md : modifier) (v : operand) : act :=
  mkact (Imm 0) d v (Imm (w6 md)) (Imm 20).
(* core/rawtrigger/stockact.py 871-891 (unit 0) *)
Definition SetDX (d : operand) (md : modifier) (v k : operand) : act :=
  mkact k d v (Imm (w6 md)) (Imm (20 + 0x43530000)).

(* An address the stock actions can name directly: not CurrentPlayer (13) and
   not a group of players. *)
Definition plain (a : Z) : Prop := u32 a <> 13 /\ special (u32 a) = false.

Lemma target_plain m a : plain a -> target m (u32 a) 0 = u32 a.
Proof. unfold plain, target, player_base. intros [H _]. destruct (Z.eqb_spec (u32 a) 13); [lia|]. cbn. lia. Qed.
Lemma special_plain a : plain a -> special (u32 a) = false.
Proof. intros [_ H]. exact H. Qed.

Lemma w6_mod md : w6 md mod 2^16 = 0.
Proof. destruct md; reflexivity. Qed.
Lemma w6_type md : act_type (w6 md) = 45.
Proof. destruct md; reflexivity. Qed.
Lemma w6_amod md : act_mod (w6 md) = enc_mod md.
Proof. destruct md; reflexivity. Qed.
Lemma w6_small md : u32 (w6 md) = w6 md.
Proof. destruct md; reflexivity. Qed.
Lemma target_w6 m p md : target m p (w6 md) = target m p 0.
Proof. unfold target. rewrite w6_mod. reflexivity. Qed.
Lemma enc_mod_cases md : enc_mod md = 7 \/ enc_mod md = 8 \/ enc_mod md = 9.
Proof. destruct md; auto. Qed.

(* Executing a list of actions from m without leaving the model ends in m'. *)
Definition acts_do (prot : Z -> bool) (m : mem) (l : list act) (m' : mem) : Prop :=
  acts_ok prot m l /\ exec_acts m l = m'.

Lemma do_nil prot m : acts_do prot m [] m.
Proof. split; [exact I|reflexivity]. Qed.

(* general rule: destination a (already evaluated) *)
Lemma do_cons_gen prot m c r m' a md k v :
  rd m (a_w6 c) = w6 md ->
  act_off (rd m (a_w7 c)) = false ->
  rd m (a_dest c) = u32 a -> plain a -> prot (idx a) = false ->
  eff_mask (rd m (a_mask c)) (rd m (a_w7 c)) = k ->
  rd m (a_val c) = v ->
  acts_do prot (upd m a (do_modx md k (get m a) v)) r m' ->
  acts_do prot m (c :: r) m'.
Proof.
  intros H6 H7 Hd Hp Hpr Hk Hv [Hok Hex].
  assert (Hx : exec_act m c = upd m a (do_modx md k (get m a) v)).
  { unfold exec_act. rewrite H6, H7, Hd, Hk, Hv, target_w6, target_plain by auto.
    rewrite w6_amod, apply_mod_x, upd_u32, get_u32. reflexivity. }
  split.
  - right. split; [|rewrite Hx; exact Hok].
    unfold act_ok. rewrite H6, Hd, target_w6, target_plain, w6_type, w6_amod by auto.
    split; [reflexivity|]. intros _. split; [apply enc_mod_cases|].
    rewrite idx_u32. split; [apply special_plain|]; auto.
  - cbn [exec_acts]. rewrite H6, w6_type, Hx. exact Hex.
Qed.

Lemma do_cons_D prot m d a md v r m' :
  rd m d = u32 a -> plain a -> prot (idx a) = false ->
  acts_do prot (upd m a (do_mod md (get m a) (rd m v))) r m' ->
  acts_do prot m (SetD d md v :: r) m'.
Proof.
  intros Hd Hp Hpr H. eapply do_cons_gen with (md := md) (a := a) (k := Z.ones 32) (v := rd m v);
    cbn [SetD a_w6 a_w7 a_dest a_mask a_val rd]; auto.
  - apply w6_small.
  - rewrite do_modx_full; auto using get_range. destruct v; cbn [rd]; [apply u32_range|apply get_range].
Qed.

Lemma do_cons_DX prot m d a md v k r m' :
  rd m d = u32 a -> plain a -> prot (idx a) = false ->
  acts_do prot (upd m a (do_modx md (rd m k) (get m a) (rd m v))) r m' ->
  acts_do prot m (SetDX d md v k :: r) m'.
Proof.
  intros Hd Hp Hpr H. eapply do_cons_gen with (md := md) (a := a) (k := rd m k) (v := rd m v);
    cbn [SetDX a_w6 a_w7 a_dest a_mask a_val rd]; auto.
  apply w6_small.
Qed.

Lemma do_app prot m l1 l2 m1 m2 :
  (forall a, In a l1 -> forall m, act_type (rd m (a_w6 a)) <> 0) ->
  acts_do prot m l1 m1 -> acts_do prot m1 l2 m2 -> acts_do prot m (l1 ++ l2) m2.
Proof.
  revert m. induction l1 as [|a r IH]; intros m Hne [Ho He] H2; cbn [app].
  - cbn in He. subst. exact H2.
  - cbn [acts_ok exec_acts] in Ho, He. pose proof (Hne a (or_introl eq_refl) m) as Hn.
    destruct Ho as [Ho|[Ho1 Ho2]]; [contradiction|].
    destruct (Z.eqb_spec (act_type (rd m (a_w6 a))) 0); [contradiction|].
    destruct (IH (exec_act m a)) as [Q1 Q2].
    { intros. apply Hne. right; auto. }
    { split; auto. }
    { exact H2. }
    split; cbn [acts_ok exec_acts]; [right; auto|].
    destruct (Z.eqb_spec (act_type (rd m (a_w6 a))) 0); [contradiction|]. exact Q2.
Qed.

(* the ordinary constant forms *)
Definition SetM (a : Z) (md : modifier) (v : Z) : act := SetD (Imm a) md (Imm v).
Definition SetMX (a : Z) (md : modifier) (v k : Z) : act := SetDX (Imm a) md (Imm v) (Imm k).

Lemma do_cons_M prot m a md v r m' :
  plain a -> prot (idx a) = false ->
  acts_do prot (upd m a (do_mod md (get m a) (u32 v))) r m' ->
  acts_do prot m (SetM a md v :: r) m'.
Proof. intros. unfold SetM; eapply do_cons_D with (a := a); cbn [rd]; eauto. Qed.
Lemma do_cons_MX prot m a md v k r m' :
  plain a -> prot (idx a) = false ->
  acts_do prot (upd m a (do_modx md (u32 k) (get m a) (u32 v))) r m' ->
  acts_do prot m (SetMX a md v k :: r) m'.
Proof. intros. unfold SetMX; eapply do_cons_DX with (a := a); cbn [rd]; eauto. Qed.

(* ---------- stock conditions ---------- *)
Inductive cmp := AtLeast | AtMost | Exactly.
(* core/rawtrigger/constenc.py: AtLeast 0, AtMost 1, Exactly 10 *)
Definition enc_cmp (c : cmp) : Z := match c with AtLeast => 0 | AtMost => 1 | Exactly => 10 end.
Definition do_cmp (c : cmp) (x y : Z) : bool :=
  match c with AtLeast => y <=? x | AtMost => x <=? y | Exactly => x =? y end.
(* core/rawtrigger/stockcond.py 221-232, 350-361 *)
Definition CondD (p : operand) (c : cmp) (n : operand) : cond :=
  mkcond (Imm 0) p n (Imm (enc_cmp c * 2^16 + 15 * 2^24)) (Imm 0).
Definition CondDX (p : operand) (c : cmp) (n k : operand) : cond :=
  mkcond k p n (Imm (enc_cmp c * 2^16 + 15 * 2^24)) (Imm 0x43530000).
Definition CondM (a : Z) (c : cmp) (n : Z) : cond := CondD (Imm a) c (Imm n).
Definition CondMX (a : Z) (c : cmp) (n k : Z) : cond := CondDX (Imm a) c (Imm n) (Imm k).
Definition Never : cond := mkcond (Imm 0) (Imm 0) (Imm 0) (Imm (23 * 2^24)) (Imm 0).
Definition Always : cond := mkcond (Imm 0) (Imm 0) (Imm 0) (Imm (22 * 2^24)) (Imm 0).

Definition conds_are (m : mem) (l : list cond) (b : bool) : Prop := conds_ok m l /\ eval_conds m l = b.

Lemma conds_nil m : conds_are m [] true.
Proof. split; [exact I|reflexivity]. Qed.

Lemma w3_facts c : u32 (enc_cmp c * 2^16 + 15 * 2^24) mod 2^16 = 0 /\
  cond_type (u32 (enc_cmp c * 2^16 + 15 * 2^24)) = 15 /\ cond_cmp (u32 (enc_cmp c * 2^16 + 15 * 2^24)) = enc_cmp c.
Proof. destruct c; repeat split; reflexivity. Qed.

Lemma compare_enc c x y : compare (enc_cmp c) x y = do_cmp c x y.
Proof. destruct c; reflexivity. Qed.

Lemma conds_cons_gen m c r b a cm k n x :
  rd m (c_w3 c) = u32 (enc_cmp cm * 2^16 + 15 * 2^24) ->
  cond_off (rd m (c_w4 c)) = false ->
  rd m (c_player c) = u32 a -> plain a ->
  eff_mask (rd m (c_mask c)) (rd m (c_w4 c)) = k ->
  rd m (c_amount c) = n ->
  x = do_cmp cm (Z.land (get m a) k) n ->
  (x = true -> conds_are m r b) -> (x = false -> b = false) ->
  conds_are m (c :: r) b.
Proof.
  intros H3 H4 Hp Hpl Hk Hn Hx Ht Hf. destruct (w3_facts cm) as (W1 & W2 & W3).
  assert (He : eval_cond m c = x).
  { unfold eval_cond. rewrite H3, H4, Hp, Hk, Hn, W2, W3.
    cbn [Z.eqb Pos.eqb]. rewrite compare_enc. unfold target, player_base. rewrite W1.
    destruct (Z.eqb_spec (u32 a) 13); [destruct Hpl; lia|].
    rewrite Z.mul_0_r, Z.add_0_r, get_u32. auto. }
  split; cbn [conds_ok eval_conds]; rewrite ?H3, ?W2.
  - right. split.
    + unfold cond_ok. rewrite H3, H4, Hp, W2, W3. right. right. right. split; [reflexivity|].
      split; [destruct cm; auto|apply special_plain; auto].
    + rewrite He. intros E. apply Ht. exact E.
  - change (15 =? 0) with false. cbn match. rewrite He. destruct x; cbn [andb].
    + apply Ht; auto.
    + rewrite Hf; auto.
Qed.

Lemma conds_cons_M m a cm n r b :
  plain a ->
  (do_cmp cm (get m a) (u32 n) = true -> conds_are m r b) ->
  (do_cmp cm (get m a) (u32 n) = false -> b = false) ->
  conds_are m (CondM a cm n :: r) b.
Proof.
  intros Hp Ht Hf. eapply conds_cons_gen with (a := a) (cm := cm) (k := Z.ones 32) (n := u32 n)
    (x := do_cmp cm (get m a) (u32 n)); unfold CondM, CondD; cbn [c_w3 c_w4 c_player c_mask c_amount rd]; auto.
  rewrite land_ones32, u32_get. reflexivity.
Qed.

Lemma conds_cons_MX m a cm n k r b :
  plain a ->
  (do_cmp cm (Z.land (get m a) (u32 k)) (u32 n) = true -> conds_are m r b) ->
  (do_cmp cm (Z.land (get m a) (u32 k)) (u32 n) = false -> b = false) ->
  conds_are m (CondMX a cm n k :: r) b.
Proof.
  intros Hp Ht Hf. eapply conds_cons_gen with (a := a) (cm := cm) (k := u32 k) (n := u32 n)
    (x := do_cmp cm (Z.land (get m a) (u32 k)) (u32 n)); unfold CondMX, CondDX; cbn [c_w3 c_w4 c_player c_mask c_amount rd]; auto.
Qed.

Lemma conds_one_M m a cm n :
  plain a -> conds_are m [CondM a cm n] (do_cmp cm (get m a) (u32 n)).
Proof. intros. apply conds_cons_M; auto. intros ->. apply conds_nil. Qed.
Lemma conds_one_MX m a cm n k :
  plain a -> conds_are m [CondMX a cm n k] (do_cmp cm (Z.land (get m a) (u32 k)) (u32 n)).
Proof. intros. apply conds_cons_MX; auto. intros ->. apply conds_nil. Qed.

(* ---------- triggers ---------- *)
Section Run.
Variable P : prog.
Variable prot : Z -> bool.

Lemma steps_trans s1 s2 s3 : steps P prot s1 s2 -> steps P prot s2 s3 -> steps P prot s1 s3.
Proof. induction 1; auto. intros. econstructor; eauto. Qed.

Lemma run_true pc m cs acts nx fl m' pc' :
  P pc = Some (mktrig cs acts nx fl) -> rd m fl = 4 ->
  conds_are m cs true -> acts_do prot m acts m' -> rd m' nx = pc' ->
  steps P prot (pc, m) (pc', m').
Proof.
  intros HP Hf [Hc1 Hc2] [Ha1 Ha2] Hn.
  assert (E : exec_trig m (mktrig cs acts nx fl) = m').
  { unfold exec_trig, fires; cbn [t_conds t_acts t_flags]. rewrite Hf, Hc2. exact Ha2. }
  eapply steps_cons.
  - eapply step_intro; [exact HP|]. unfold trig_ok; cbn [t_conds t_acts t_flags]. intros _. split; auto. intros _. rewrite Hf. split; auto.
  - rewrite E. cbn [t_next]. rewrite Hn. apply steps_refl.
Qed.

Lemma run_false pc m cs acts nx fl pc' :
  P pc = Some (mktrig cs acts nx fl) -> rd m fl = 4 ->
  conds_are m cs false -> rd m nx = pc' ->
  steps P prot (pc, m) (pc', m).
Proof.
  intros HP Hf [Hc1 Hc2] Hn.
  assert (E : exec_trig m (mktrig cs acts nx fl) = m).
  { unfold exec_trig, fires; cbn [t_conds t_acts t_flags]. rewrite Hf, Hc2. reflexivity. }
  eapply steps_cons.
  - eapply step_intro; [exact HP|]. unfold trig_ok; cbn [t_conds t_acts t_flags]. intros _. split; auto. rewrite Hc2. discriminate.
  - rewrite E. cbn [t_next]. rewrite Hn. apply steps_refl.
Qed.

Lemma run_cond pc m cs acts nx fl b m' pc' :
  P pc = Some (mktrig cs acts nx fl) -> rd m fl = 4 ->
  conds_are m cs b -> (b = true -> acts_do prot m acts m') -> (b = false -> m' = m) -> rd m' nx = pc' ->
  steps P prot (pc, m) (pc', m').
Proof.
  intros HP Hf Hc Ht Hff Hn. destruct b.
  - eapply run_true; eauto.
  - rewrite (Hff eq_refl) in *. eapply run_false; eauto.
Qed.
End Run.
