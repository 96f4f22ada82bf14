(* Short-circuit conditions as parts of structured programs: code generation
   always succeeds and keeps the Forwards in order, and the code does what the
   leaf means. *)
From Coq Require Import ZArith Lia List Bool Permutation ZifyBool ZifyNat.
From Verif Require Import Word Machine MachineProofs VarModel VarSpec OpsModel FuncModel EpdModel.
From Verif Require Import StruModel StruSpec StruProofs StruComp StruMain LogicModel LogicProofs.
Import ListNotations.
Open Scope Z_scope.

(* ---------- Forwards ---------- *)
Lemma inv_push h s : inv h s -> inv (b_pend s ++ h) (snd (PushTriggerScope s)).
Proof. intros H. exact H. Qed.
Lemma inv_pop h outer s : inv (outer ++ h) s -> inv h (PopTriggerScope outer s).
Proof.
  intros [A B]. split; [exact A|]. apply (perm_fw (outer ++ h) s _ _ 0); [exact B| |cbn; lia].
  cbn [PopTriggerScope b_sets b_pend app seq]. rewrite map_app, map_map. cbn [fst]. rewrite map_id. rewrite !app_assoc.
  do 2 apply Permutation_app_tail. apply Permutation_app_comm.
Qed.
Definition opt_parts (o : option stmt) : list leaf := match o with Some p => fst (parts p) | None => [] end.
Definition test_inv (t : test) : Prop := leaf_inv (opt_parts (t_pre t)) /\ leaf_inv (opt_parts (t_patch t)).
Lemma inv_opt o h s s' : leaf_inv (opt_parts o) -> opt_comp o s = Some s' -> inv h s -> inv h s'.
Proof. destruct o as [p|]; cbn [opt_parts opt_comp]; intros G H; [apply (comp_inv p G None s s' h H)|injection H as <-; auto]. Qed.
Lemma inv_sc_jump stop t to h s s' : test_inv t -> sc_jump stop t to s = Some s' -> inv h s -> inv h s'.
Proof.
  intros [_ G] H I. unfold sc_jump in H. apply bindo_some in H. destruct H as (s1 & E & H). injection H as <-. apply inv_jump_if. eapply inv_opt; eauto.
Qed.
Lemma inv_or_calls tb l h : (forall t, In t l -> test_inv t) -> forall s s', sc_or_calls tb l s = Some s' -> inv h s -> inv h s'.
Proof.
  induction l as [|t r IH]; intros G s s' H I; cbn [sc_or_calls] in H; [injection H as <-; exact I|].
  apply bindo_some in H. destruct H as (s1 & E1 & H). apply bindo_some in H. destruct H as (s2 & E2 & H).
  assert (T : test_inv t) by (apply G; left; reflexivity).
  eapply (IH (fun u Hu => G u (or_intror Hu))); [exact H|]. eapply inv_sc_jump; [exact T|exact E2|]. eapply inv_opt; [exact (proj1 T)|exact E1|exact I].
Qed.
Lemma inv_or e k l h s s' : (forall t, In t l -> test_inv t) -> EUDSCOr e k l s = Some s' -> inv h s -> inv h s'.
Proof.
  intros G H I. unfold EUDSCOr in H. cbn [Forward] in H. set (s1 := mkbs _ _ _ _ _ _) in H.
  set (s2 := RawTrigger [] (fun _ => [lb_Clear e k]) s1) in H.
  change (PushTriggerScope s2) with (b_pend s2, snd (PushTriggerScope s2)) in H. cbv iota beta zeta in H.
  apply bindo_some in H. destruct H as (s4 & C & H). match type of H with ?l = _ => change l with (Some (fset (b_nf s) (F (b_nf s4)) (snd (NextTrigger s4)))) in H end.
  assert (ES : s' = fset (b_nf s) (F (b_nf s4)) (snd (NextTrigger s4))) by congruence. subst s'.
  apply inv_mark. eapply inv_or_calls; [exact G|exact C|]. apply inv_pop. apply inv_rawto. apply inv_push. apply inv_raw. apply (inv_forward h s I).
Qed.

Definition sa_inv (h : list nat) (a : sca) (s : bs) : Prop := if sa_const a then inv (sa_outer a ++ h) s else inv (sa_jb a :: h) s.
Lemma inv_patch v h a s a' s' : inv (sa_outer a ++ h) s -> sa_patch v a s = (a', s') -> sa_const a' = false /\ inv (sa_jb a' :: h) s'.
Proof.
  intros I H. unfold sa_patch in H. cbn [Forward] in H. set (s0 := mkbs _ _ _ _ _ _) in H.
  match type of H with (?x, ?y) = _ => assert (EA : a' = x) by congruence; assert (ES : s' = y) by congruence end. subst a' s'. split; [reflexivity|]. cbn [sa_jb].
  apply inv_raw. apply inv_pop. apply inv_rawto. eapply inv_perm; [|apply (inv_forward _ s I)]. apply Permutation_sym, Permutation_middle.
Qed.
Lemma inv_flush h a s a' s' : inv h s -> sa_flush a s = (a', s') -> sa_const a' = sa_const a /\ sa_jb a' = sa_jb a /\ inv h s'.
Proof. unfold sa_flush. intros I H. destruct (sa_cond a); injection H as <- <-; [auto|]. split; [reflexivity|]. split; [reflexivity|]. apply (inv_jump_if h false). exact I. Qed.
Lemma inv_call v t h a s a' s' : test_inv t -> sa_call v t a s = Some (a', s') -> sa_inv h a s -> sa_inv h a' s'.
Proof.
  intros T H I. unfold sa_call in H. unfold sa_inv in *. destruct (sa_const a) eqn:EC; cbn [negb] in H.
  - destruct (negb (only (b_pend s) (sa_side a))).
    + cbn [Forward] in H. set (s1 := mkbs _ _ _ _ _ _) in H. set (s2 := SetNextTrigger (F (b_nf s)) s1) in H.
      destruct (sa_patch v a s2) as [a3 s3] eqn:HP. destruct (sa_flush a3 s3) as [a4 s4] eqn:HF.
      set (sq := SetNextTrigger (F (sa_side a4)) s4) in H. change (NextTrigger sq) with (b_nf sq, snd (NextTrigger sq)) in H. cbv iota beta zeta in H.
      apply bindo_some in H. destruct H as (s6 & HJ & H). injection H as <- <-.
      destruct (inv_patch v (b_nf s :: h) a s2 a3 s3) as [C3 I3]; [|exact HP|].
      { apply inv_set. eapply inv_perm; [|apply (inv_forward _ s I)]. apply Permutation_sym, Permutation_middle. }
      destruct (inv_flush _ _ _ _ _ I3 HF) as (C4 & J4 & I4). rewrite C4, C3, J4.
      eapply inv_sc_jump; [exact T|exact HJ|]. apply inv_fset. apply inv_next. apply inv_set. apply inv_swap. exact I4.
    + destruct (sa_patch v a s) as [a3 s3] eqn:HP. destruct (sa_flush a3 s3) as [a4 s4] eqn:HF.
      destruct (inv_patch v h a s a3 s3 I HP) as [C3 I3]. destruct (inv_flush _ _ _ _ _ I3 HF) as (C4 & J4 & I4).
      assert (Q : forall s6, sc_jump false t (P (sa_fb a4)) s4 = Some s6 -> if sa_const a4 then inv (sa_outer a4 ++ h) s6 else inv (sa_jb a4 :: h) s6).
      { intros s6 HJ. rewrite C4, C3, J4. eapply inv_sc_jump; [exact T|exact HJ|exact I4]. }
      destruct (t_patch t); [|destruct (t_neg t); [destruct (t_flip t)|]].
      * apply bindo_some in H. destruct H as (s6 & HJ & H). injection H as <- <-. exact (Q _ HJ).
      * injection H as <- <-. cbn [sa_add sa_const sa_outer]. rewrite EC. exact I.
      * apply bindo_some in H. destruct H as (s6 & HJ & H). injection H as <- <-. exact (Q _ HJ).
      * injection H as <- <-. cbn [sa_add sa_const sa_outer]. rewrite EC. exact I.
  - apply bindo_some in H. destruct H as (s6 & HJ & H). injection H as <- <-. rewrite EC. eapply inv_sc_jump; eauto.
Qed.
Lemma inv_calls v l h : (forall t, In t l -> test_inv t) -> forall a s a' s', sa_calls v l a s = Some (a', s') -> sa_inv h a s -> sa_inv h a' s'.
Proof.
  induction l as [|t r IH]; intros G a s a' s' H I; cbn [sa_calls] in H; [injection H as <- <-; exact I|].
  apply bindo_some in H. destruct H as (s1 & E1 & H). apply bindo_some in H. destruct H as ([a2 s2] & E2 & H). cbn [fst snd] in H.
  assert (T : test_inv t) by (apply G; left; reflexivity).
  eapply (IH (fun u Hu => G u (or_intror Hu))); [exact H|]. eapply inv_call; [exact T|exact E2|].
  unfold sa_inv in *. destruct (sa_const a); (eapply inv_opt; [exact (proj1 T)|exact E1|exact I]).
Qed.
Lemma inv_and v l h s res s' : (forall t, In t l -> test_inv t) -> EUDSCAnd v l s = Some (res, s') -> inv h s -> inv h s'.
Proof.
  intros G H I. unfold EUDSCAnd in H. destruct (sa_new s) as [a s1] eqn:EN. apply bindo_some in H. destruct H as ([a2 s2] & E & H). cbn [fst snd] in H.
  assert (I1 : sa_inv h a s1).
  { unfold sa_new in EN. change (PushTriggerScope s) with (b_pend s, snd (PushTriggerScope s)) in EN. cbv iota beta zeta in EN.
    change (NextTrigger (snd (PushTriggerScope s))) with (b_nf s, snd (NextTrigger (snd (PushTriggerScope s)))) in EN. cbv iota beta zeta in EN.
    injection EN as <- E1. assert (ES : s1 = snd (NextTrigger (snd (PushTriggerScope s)))) by (rewrite <- E1; reflexivity). rewrite ES. unfold sa_inv. cbn [sa_const sa_outer].
    apply inv_next, inv_push, I. }
  pose proof (inv_calls v l h G a s1 a2 s2 E I1) as I2. unfold sa_inv in I2. unfold sa_result in H. destruct (sa_const a2).
  - assert (ES : s' = PopTriggerScope (sa_outer a2) s2) by congruence. subst s'. apply inv_pop, I2.
  - destruct (sa_flush a2 s2) as [a3 s3] eqn:HF. destruct (inv_flush _ _ _ _ _ I2 HF) as (_ & J & I3). rewrite <- J in I3.
    change (Some ([CondM v AtLeast 1], fset (sa_jb a3) (F (b_nf s3)) (snd (NextTrigger s3))) = Some (res, s')) in H.
    assert (ES : s' = fset (sa_jb a3) (F (b_nf s3)) (snd (NextTrigger s3))) by congruence. subst s'. apply inv_mark, I3.
Qed.
Lemma inv_ternary neg cs on1 on2 h s s' : leaf_inv (fst (parts on1)) -> leaf_inv (fst (parts on2)) -> EUDTernary neg cs on1 on2 s = Some s' -> inv h s -> inv h s'.
Proof.
  intros G1 G2 H I. unfold EUDTernary in H. cbn [Forward b_nf] in H. set (s1 := mkbs _ _ _ _ _ _) in H.
  apply bindo_some in H. destruct H as (s2 & C1 & H). unfold NextTrigger at 1 in H.
  apply bindo_some in H. destruct H as (s3 & C2 & H).
  change (Some (fset (S (b_nf s)) (F (b_nf s3)) (snd (NextTrigger s3))) = Some s') in H.
  assert (ES : s' = fset (S (b_nf s)) (F (b_nf s3)) (snd (NextTrigger s3))) by congruence. clear H. subst s'.
  apply inv_mark. eapply (comp_inv on2 G2); [exact C2|]. apply (inv_mark _ _ _ (SetNextTrigger (F (S (b_nf s))) s2)). apply inv_set. apply inv_swap. eapply (comp_inv on1 G1); [exact C1|].
  apply inv_jump_if. apply (inv_forward _ (snd (Forward s))), (inv_forward _ s), I.
Qed.

(* ---------- code generation succeeds ---------- *)
Definition opt_closed (o : option stmt) : bool := match o with Some p => in_loops false p | None => true end.
Definition closed (t : test) : bool := opt_closed (t_pre t) && opt_closed (t_patch t).
Lemma opt_total o s : opt_closed o = true -> exists s', opt_comp o s = Some s'.
Proof. destruct o as [p|]; cbn; intros H; [apply (comp_total p None s H)|eauto]. Qed.
Lemma sc_jump_total stop t to s : closed t = true -> exists s', sc_jump stop t to s = Some s'.
Proof. intros H. apply andb_true_iff in H. destruct (opt_total (t_patch t) s (proj2 H)) as (s' & E). unfold sc_jump. rewrite E. cbn [bindo]. eauto. Qed.
Lemma or_total e k l s : forallb closed l = true -> exists s', EUDSCOr e k l s = Some s'.
Proof.
  intros H. assert (Q : forall tb l s, forallb closed l = true -> exists s', sc_or_calls tb l s = Some s').
  { clear. intros tb l. induction l as [|t r IH]; intros s H; cbn [sc_or_calls]; [eauto|]. cbn [forallb] in H. apply andb_true_iff in H. destruct H as [H1 H2].
    destruct (opt_total (t_pre t) s) as (s1 & ->); [apply andb_true_iff in H1; apply H1|]. cbn [bindo]. destruct (sc_jump_total true t tb s1 H1) as (s2 & ->). cbn [bindo]. auto. }
  unfold EUDSCOr. cbn [Forward]. match goal with |- context [RawTrigger [] ?f ?s] => set (s2 := RawTrigger [] f s) end.
  change (PushTriggerScope s2) with (b_pend s2, snd (PushTriggerScope s2)). cbv iota beta zeta.
  match goal with |- context [sc_or_calls ?tb l ?x] => destruct (Q tb l x H) as (s4 & ->) end. cbn [bindo]. destruct (NextTrigger s4). eauto.
Qed.
Lemma call_total v t a s : closed t = true -> exists x, sa_call v t a s = Some x.
Proof.
  intros H. unfold sa_call.
  destruct (negb (sa_const a)); [destruct (sc_jump_total false t (P (sa_fb a)) s H) as (s2 & ->); cbn [bindo]; eauto|].
  destruct (negb (only (b_pend s) (sa_side a))).
  - destruct (Forward s) as [f s1]. destruct (sa_patch v a _) as [a3 s3]. destruct (sa_flush a3 s3) as [a4 s4]. destruct (NextTrigger _) as [g s5].
    match goal with |- context [sc_jump false t ?tb ?x] => destruct (sc_jump_total false t tb x H) as (s6 & ->) end. cbn [bindo]. eauto.
  - destruct (sa_patch v a s) as [a3 s3]. destruct (sa_flush a3 s3) as [a4 s4].
    destruct (sc_jump_total false t (P (sa_fb a4)) s4 H) as (s6 & E). rewrite E. cbn [bindo].
    destruct (t_patch t); [eauto|]. destruct (t_neg t); [destruct (t_flip t)|]; eauto.
Qed.
Lemma and_total v l s : forallb closed l = true -> exists x, EUDSCAnd v l s = Some x.
Proof.
  intros H. assert (Q : forall l a s, forallb closed l = true -> exists x, sa_calls v l a s = Some x).
  { clear. induction l as [|t r IH]; intros a s H; cbn [sa_calls]; [eauto|]. cbn [forallb] in H. apply andb_true_iff in H. destruct H as [H1 H2].
    destruct (opt_total (t_pre t) s) as (s1 & ->); [apply andb_true_iff in H1; apply H1|]. cbn [bindo]. destruct (call_total v t a s1 H1) as ([a2 s2] & ->). cbn [bindo fst snd]. auto. }
  unfold EUDSCAnd. destruct (sa_new s) as [a s1]. destruct (Q l a s1 H) as (x & ->). cbn [bindo]. eauto.
Qed.
Lemma ternary_total neg cs on1 on2 s : in_loops false on1 = true -> in_loops false on2 = true -> exists s', EUDTernary neg cs on1 on2 s = Some s'.
Proof.
  intros H1 H2. unfold EUDTernary. destruct (Forward s) as [t s1]. destruct (Forward s1) as [fin s2].
  match goal with |- context [comp None on1 ?x] => destruct (comp_total on1 None x H1) as (s3 & ->) end. cbn [bindo]. destruct (NextTrigger _) as [f s4].
  match goal with |- context [comp None on2 ?x] => destruct (comp_total on2 None x H2) as (s5 & ->) end. cbn [bindo]. destruct (NextTrigger s5). eauto.
Qed.

(* ---------- bits ---------- *)
Definition set_bit (e i : Z) (b : bool) (m : mem) : mem := upd m e (if b then Z.setbit (get m e) i else Z.clearbit (get m e) i).
Lemma modx_setbit d i : 0 <= i < 32 -> do_modx SetTo (u32 (2^i)) d (u32 (2^i)) = Z.setbit d i.
Proof.
  intros Hi. assert (P : 0 < 2^i < 2^32) by (split; [apply Z.pow_pos_nonneg; lia|apply Z.pow_lt_mono_r; lia]). rewrite !(u32_small (2^i)) by lia.
  cbn [do_modx]. unfold wset. rewrite Z.setbit_spec', Z.land_diag. apply Z.bits_inj'. intros n Hn. rewrite !Z.lor_spec, Z.ldiff_spec. destruct (Z.testbit d n), (Z.testbit (2^i) n); reflexivity.
Qed.
Lemma modx_clearbit d i : 0 <= i < 32 -> do_modx SetTo (u32 (2^i)) d (u32 0) = Z.clearbit d i.
Proof.
  intros Hi. assert (P : 0 < 2^i < 2^32) by (split; [apply Z.pow_pos_nonneg; lia|apply Z.pow_lt_mono_r; lia]). rewrite !(u32_small (2^i)) by lia.
  rewrite (u32_small 0) by lia. cbn [do_modx]. unfold wset. rewrite Z.clearbit_spec', Z.land_0_l, Z.lor_0_r. reflexivity.
Qed.
Lemma bit_do prot m e i (b : bool) : plain e -> prot (idx e) = false -> 0 <= i < 32 -> acts_do prot m [if b then lb_Set e (2^i) else lb_Clear e (2^i)] (set_bit e i b m).
Proof.
  intros He Hp Hi. unfold set_bit. destruct b.
  - rewrite <- (modx_setbit _ i Hi). apply do_cons_MX; [exact He|exact Hp|apply do_nil].
  - rewrite <- (modx_clearbit _ i Hi). apply do_cons_MX; [exact He|exact Hp|apply do_nil].
Qed.
Lemma num_do prot m v n : plain v -> prot (idx v) = false -> 0 <= n < 2^32 -> acts_do prot m [SetNumber v n] (upd m v n).
Proof.
  intros Hv Hp Hn. assert (E : upd m v n = upd m v (do_mod SetTo (get m v) (u32 n))) by (cbn [do_mod]; rewrite u32_small by exact Hn; reflexivity).
  rewrite E. apply do_cons_M; [exact Hv|exact Hp|apply do_nil].
Qed.

Section Leaves.
Variable w : world.
Variable L : lay.
Variable SF : bs.
Hypothesis HL : linked w L SF.
Hypothesis Hinit : NoDup (map fst (b_init SF)).

Lemma upd_agree m1 m e x y : ~ priv L SF e -> x = y -> agree (priv L SF) m1 m -> agree (priv L SF) (upd m1 e x) (upd m e y).
Proof.
  intros He -> A a Ha. destruct (Z.eq_dec (idx a) (idx e)) as [E|E].
  - unfold get, upd. rewrite E, Z.eqb_refl. reflexivity.
  - rewrite !get_upd_ne by congruence. apply A. exact Ha.
Qed.
Lemma priv_idx a e : idx a = idx e -> priv L SF a -> priv L SF e.
Proof. intros E [(k & l & H & Q)|(d & H & Q)]; [left; exists k, l|right; exists d]; split; auto; congruence. Qed.
Lemma upd_priv m e x a : ~ priv L SF e -> priv L SF a -> get (upd m e x) a = get m a.
Proof. intros He Ha. apply get_upd_ne. intros E. apply He. apply (priv_idx a e); [congruence|exact Ha]. Qed.
Lemma writes_bit e i (b : bool) : writable w e -> ~ priv L SF e -> 0 <= i < 32 -> writes w L SF (if b then lb_Set e (2^i) else lb_Clear e (2^i)) (set_bit e i b).
Proof.
  intros [He Hp] Hn Hi. split; [intros m; apply bit_do; auto|]. split.
  - intros m1 m A. apply upd_agree; [exact Hn| |exact A]. rewrite (A e Hn). reflexivity.
  - intros m a Ha. apply upd_priv; auto.
Qed.
Lemma writes_num v n : writable w v -> ~ priv L SF v -> 0 <= n < 2^32 -> writes w L SF (SetNumber v n) (fun m => upd m v n).
Proof.
  intros [He Hp] Hn Hi. split; [intros m; apply num_do; auto|]. split.
  - intros m1 m A. apply upd_agree; [exact Hn|reflexivity|exact A].
  - intros m a Ha. apply upd_priv; auto.
Qed.

(* one trigger with one action *)
Lemma impl_write c g en s : writes w L SF c g -> impl w L SF (done (fun m m' => m' = g m)) en s (RawTrigger [] (fun _ => [c]) s).
Proof.
  intros W. split; [apply ext_raw|]. split; [intros _ _; cbn; destruct (b_pend s); discriminate|].
  intros X x Hx. destruct (raw_at w L SF HL (fun _ => [c]) s X x Hx) as [P1 P2]. exists (L_T L (pos s)). split; [exact P1|].
  intros _ m o m' [-> ->] m1 Hs. exists (g m1). cbn [dest]. split; [eapply writes_run; eauto|]. split; [eapply writes_sim; eauto|eapply writes_keep; exact W].
Qed.
(* one trigger with one action and a condition *)
Lemma impl_write_if c g k en s : cgood L SF k -> writes w L SF c g ->
  impl w L SF (done (fun m m' => m' = if eval_cond m k then g m else m)) en s (RawTrigger [k] (fun _ => [c]) s).
Proof.
  intros G W. split; [apply ext_raw|]. split; [intros _ _; cbn; destruct (b_pend s); discriminate|].
  intros X x Hx. unfold RawTrigger in X, Hx.
  assert (E1 : ext (emit (fun L => RawTrig [k] [c] (pa (L_F L (b_nf s)))) s) SF) by (eapply ext_trans; [apply ext_next|exact X]).
  destruct (emit_at w L SF HL _ s E1) as [P1 H1]. exists (L_T L (pos s)). split; [exact H1|].
  unfold lbl in P1. rewrite (Hx (b_nf s)) in P1 by (cbn; left; reflexivity).
  intros _ m o m' [-> ->] m1 Hs. cbn [dest]. destruct (G m1 m (proj1 Hs)) as (Q1 & Q2 & Q3).
  assert (C : conds_ok m1 [k]) by (right; split; [exact Q1|intros _; exact I]).
  assert (EV : eval_conds m1 [k] = eval_cond m1 k) by (cbn [eval_conds]; destruct (Z.eqb_spec (cond_type (rd m1 (c_w3 k))) 0) as [E|E]; [contradiction|apply andb_true_r]).
  destruct (eval_cond m k) eqn:EK.
  - exists (g m1). split; [|split; [eapply writes_sim; eauto|eapply writes_keep; exact W]].
    eapply run_true with (1 := P1); [reflexivity|split; [exact C|rewrite EV; congruence]|apply W|]. cbn [rd]. apply pa_u32.
  - exists m1. split; [|split; [exact Hs|apply keepD_refl]].
    eapply run_false with (1 := P1); [reflexivity|split; [exact C|rewrite EV; congruence]|]. cbn [rd]. apply pa_u32.
Qed.

(* EUDSCOr as a leaf: the bit i of the dword at e is the answer *)
Definition or_means (e i : Z) (l : list test) (m m' : mem) : Prop :=
  exists b m2, evals true l (set_bit e i false m) b m2 /\ m' = if b then set_bit e i true m2 else m2.
Definition or_leaf (e i : Z) (l : list test) : leaf :=
  mkleaf (fun s => match EUDSCOr e (2^i) l s with Some s' => s' | None => s end) (or_means e i l).
Lemma or_leaf_inv e i l h s : (forall t, In t l -> test_inv t) -> inv h s -> inv h (lf_emit (or_leaf e i l) s).
Proof. intros G I. cbn [or_leaf lf_emit]. destruct (EUDSCOr e (2^i) l s) as [s'|] eqn:E; [|exact I]. eapply inv_or; eauto. Qed.
Lemma or_leaf_good e i l : writable w e -> ~ priv L SF e -> 0 <= i < 32 -> forallb closed l = true -> (forall t, In t l -> test_good w L SF t) ->
  lgood w L SF (or_leaf e i l).
Proof.
  intros He Hn Hi HC G en s. cbn [or_leaf lf_emit lf_sem]. destruct (or_total e (2^i) l s HC) as (s' & E). rewrite E.
  apply (impl_or w L SF HL Hinit e (2^i) (set_bit e i false) (set_bit e i true) l en s s'); try assumption.
  - apply (writes_bit e i false); auto.
  - apply (writes_bit e i true); auto.
Qed.
(* EUDSCAnd as a leaf. The answer is and_conds. *)
Definition and_conds (v : Z) (l : list test) : list cond :=
  if forallb const_test l then concat (map result_conds l) else [CondM v AtLeast 1].
Definition and_means (v : Z) (l : list test) (m m' : mem) : Prop :=
  if forallb const_test l then m' = m
  else exists b m2, evals false l (upd m v 1) b m2 /\ m' = if b then m2 else upd m2 v 0.
Definition and_leaf (v : Z) (l : list test) : leaf :=
  mkleaf (fun s => match EUDSCAnd v l s with Some x => snd x | None => s end) (and_means v l).
Lemma and_leaf_inv v l h s : (forall t, In t l -> test_inv t) -> inv h s -> inv h (lf_emit (and_leaf v l) s).
Proof. intros G I. cbn [and_leaf lf_emit]. destruct (EUDSCAnd v l s) as [[res s']|] eqn:E; [|exact I]. eapply inv_and; eauto. Qed.
Lemma and_leaf_good v l : writable w v -> ~ priv L SF v -> forallb closed l = true -> (forall t, In t l -> and_good w L SF t) -> lgood w L SF (and_leaf v l).
Proof.
  intros He Hn HC G en s. cbn [and_leaf lf_emit lf_sem]. destruct (and_total v l s HC) as ([res s'] & E). rewrite E. cbn [snd].
  destruct (impl_and w L SF HL Hinit v (fun m => upd m v 1) (fun m => upd m v 0)) with (l := l) (en := en) (s := s) (s' := s') (res := res) as [I _]; try assumption.
  - apply writes_num; auto; lia.
  - apply writes_num; auto; lia.
Qed.
(* EUDTernary as a leaf *)
Definition ternary_means (neg : bool) (cs : list cond) (on1 on2 : stmt) (m m' : mem) : Prop :=
  if holds neg cs m then den on1 m Norm m' else den on2 m Norm m'.
Definition ternary_leaf neg cs on1 on2 : leaf :=
  mkleaf (fun s => match EUDTernary neg cs on1 on2 s with Some s' => s' | None => s end) (ternary_means neg cs on1 on2).
Lemma ternary_leaf_good neg cs on1 on2 : (forall c, In c cs -> cgood L SF c) -> goodp w L SF (parts on1) -> goodp w L SF (parts on2) ->
  in_loops false on1 = true -> in_loops false on2 = true -> lgood w L SF (ternary_leaf neg cs on1 on2).
Proof.
  intros Gc G1 G2 H1 H2 en s. cbn [ternary_leaf lf_emit lf_sem]. destruct (ternary_total neg cs on1 on2 s H1 H2) as (s' & E). rewrite E.
  apply (impl_ternary w L SF HL Hinit neg cs on1 on2); assumption.
Qed.
Lemma ternary_leaf_inv neg cs on1 on2 h s : leaf_inv (fst (parts on1)) -> leaf_inv (fst (parts on2)) -> inv h s -> inv h (lf_emit (ternary_leaf neg cs on1 on2) s).
Proof. intros G1 G2 I. cbn [ternary_leaf lf_emit]. destruct (EUDTernary neg cs on1 on2 s) as [s'|] eqn:E; [|exact I]. exact (inv_ternary neg cs on1 on2 h s s' G1 G2 E I). Qed.
End Leaves.
