(* Code generated for short-circuit conditions runs as they mean. *)
From Coq Require Import ZArith Lia List Bool Permutation ZifyBool ZifyNat.
From Verif Require Import Word Machine MachineProofs VarModel VarSpec OpsModel FuncModel EpdModel.
From Verif Require Import StruModel StruSpec StruProofs StruComp StruMain LogicModel.
Import ListNotations.
Open Scope Z_scope.

(* ---------- meaning ---------- *)
Definition opt_mem (o : option stmt) (m m' : mem) : Prop :=
  match o with Some p => den p m Norm m' | None => m' = m end.
(* the argument is computed *)
Definition computed (t : test) (m m' : mem) : Prop := exists m1, opt_mem (t_pre t) m m1 /\ opt_mem (t_patch t) m1 m'.
(* Arguments from left to right, up to the first one that is [stop]: its value
   is the answer. If there is none, the answer is the other value. *)
Inductive evals (stop : bool) : list test -> mem -> bool -> mem -> Prop :=
| ev_nil m : evals stop [] m (negb stop) m
| ev_stop t r m m1 : computed t m m1 -> holds (t_neg t) (t_conds t) m1 = stop -> evals stop (t :: r) m stop m1
| ev_go t r m m1 b m' : computed t m m1 -> holds (t_neg t) (t_conds t) m1 = negb stop -> evals stop r m1 b m' -> evals stop (t :: r) m b m'.

Section Run.
Variable w : world.
Variable L : lay.
Variable SF : bs.
Notation R := (L_F L).
Notation TT := (L_T L).
Notation sim := (sim L SF).
Notation priv := (priv L SF).
Hypothesis HL : linked w L SF.
Hypothesis Hinit : NoDup (map fst (b_init SF)).
Notation impl := (impl w L SF).
Notation acts := (acts w L SF).
Notation cgood := (cgood L SF).
Notation lgood := (lgood w L SF).
Notation goodp := (goodp w L SF).

(* like impl, but everything abnormal goes to t *)
Definition dst2 (t x : Z) (o : outcome) : Z := match o with Norm => x | _ => t end.
Definition implT (t : Z) (B : rel) (s s' : bs) : Prop :=
  ext s s' /\ (b_pend s <> [] -> (exists m m', B m Norm m') -> b_pend s' <> []) /\
  (ext s' SF -> forall x, (forall f, In f (b_pend s') -> R f = x) ->
   exists a, (forall f, In f (b_pend s) -> R f = a) /\ (b_pend s <> [] -> acts B a (dst2 t x) (b_nd s) (b_nd s'))).

Lemma implT_skip t s : implT t skip_rel s s.
Proof. split; [apply ext_refl|]. split; [auto|]. intros _ x Hx. exists x. split; [exact Hx|]. intros _. apply acts_skip. reflexivity. Qed.
Lemma implT_seq t A B s s1 s2 : implT t A s s1 -> implT t B s1 s2 -> implT t (seq_rel A B) s s2.
Proof.
  intros (E1 & F1 & A1) (E2 & F2 & A2). split; [eapply ext_trans; eauto|]. split.
  - intros Hn (m & m' & [[Q _]|(mm & Q1 & Q2)]); [contradiction|]. apply F2; [apply F1; eauto|eauto].
  - intros Hx x Hp. destruct (A2 Hx x Hp) as (b & P2 & Q2). destruct (A1 (ext_trans _ _ _ E2 Hx) b P2) as (a & P1 & Q1).
    exists a. split; [exact P1|]. intros Hn.
    assert (N1 : (b_nd s <= b_nd s1)%nat) by apply E1. assert (N2 : (b_nd s1 <= b_nd s2)%nat) by apply E2.
    apply acts_seq with (b := b).
    + eapply acts_wide; [|apply Nat.le_refl|exact N2]. intros m o m' HA m1 Hs. destruct (Q1 Hn m o m' HA m1 Hs) as (y & X & Y & Z).
      exists y. split; [|auto]. destruct o; exact X.
    + intros HNorm. eapply acts_wide; [apply Q2; apply F1; auto|exact N1|apply Nat.le_refl].
Qed.
Lemma implT_shift t B s s1 s2 : same_pend s s1 -> implT t B s1 s2 -> implT t B s s2.
Proof.
  intros [E H] (E2 & A & C). rewrite H in A, C. split; [eapply ext_trans; eauto|]. split; [exact A|].
  intros Hx x Hp. destruct (C Hx x Hp) as (a & Q1 & Q2). exists a. split; [exact Q1|]. intros Hn. eapply acts_wide; [apply Q2; exact Hn| |lia].
  destruct E as (_ & _ & _ & E). exact E.
Qed.

Definition opt_rel (o : option stmt) : rel := match o with Some p => fun m x m' => x = Norm /\ den p m Norm m' | None => skip_rel end.
Definition opt_good (o : option stmt) : Prop := match o with Some p => goodp (parts p) | None => True end.
Lemma opt_rel_mem o m m' : opt_mem o m m' -> opt_rel o m Norm m'.
Proof. destruct o; cbn; [auto|]. intros ->. split; reflexivity. Qed.
Lemma implT_opt t o s s' : opt_good o -> opt_comp o s = Some s' -> implT t (opt_rel o) s s'.
Proof.
  destruct o as [p|]; cbn [opt_good opt_comp opt_rel]; intros G H; [|injection H as <-; apply implT_skip].
  destruct (comp_ok w L SF HL Hinit p None s s' G H) as (E & A & B). split; [exact E|]. split.
  - intros Hn (m & m' & _ & Q). apply A; [exact Hn|eauto].
  - intros X x Hx. destruct (B X x Hx) as (a & Pa & Aa). exists a. split; [exact Pa|]. intros Hn m o m' [-> Q] m1 Hs. exact (Aa Hn m Norm m' Q m1 Hs).
Qed.
Definition stop_when (stop : bool) (neg : bool) (cs : list cond) : rel :=
  if_rel (fun m => Bool.eqb (holds neg cs m) stop) (stop_rel Brk) skip_rel.
Lemma implT_jump stop neg cs l s : (forall c, In c cs -> cgood c) ->
  implT (lv L l) (stop_when stop neg cs) s (jump_if (xorb stop neg) (konst cs) l s).
Proof.
  intros Hc. split; [apply ext_jump_if|]. split.
  - intros _ _. destruct (jump_pend (xorb stop neg) (konst cs) l s) as [g Hg]. eapply in_nonempty; exact Hg.
  - intros E x Hx.
    destruct (jump_acts w L SF HL Hinit (xorb stop neg) cs l s skip_rel (stop_rel Brk) (dst2 (lv L l) x) Hc E x (b_nd s) (b_nd (jump_if (xorb stop neg) (konst cs) l s)) Hx) as (a & Ha & J).
    + apply acts_skip. reflexivity.
    + apply acts_stop. reflexivity.
    + exists a. split; [exact Ha|]. intros _ m o m' H. apply J. unfold stop_when, if_rel, holds in *.
      destruct stop, neg, (forallb (eval_cond m) cs); exact H.
Qed.
Definition test_good (t : test) : Prop := opt_good (t_pre t) /\ opt_good (t_patch t) /\ forall c, In c (t_conds t) -> cgood c.
Definition test_rel (stop : bool) (t : test) : rel := seq_rel (opt_rel (t_patch t)) (stop_when stop (t_neg t) (t_conds t)).
Lemma implT_test stop t l s s' : test_good t -> sc_jump stop t l s = Some s' -> implT (lv L l) (test_rel stop t) s s'.
Proof.
  intros (_ & G1 & G2) H. unfold sc_jump in H. apply bindo_some in H. destruct H as (s1 & E & H). injection H as <-.
  eapply implT_seq; [apply implT_opt; eauto|apply implT_jump; exact G2].
Qed.
Fixpoint tests_rel (stop : bool) (l : list test) : rel :=
  match l with
  | [] => skip_rel
  | t :: r => seq_rel (opt_rel (t_pre t)) (seq_rel (test_rel stop t) (tests_rel stop r))
  end.
Fixpoint sc_calls (stop : bool) (tb : loc) (l : list test) (s : bs) : option bs :=
  match l with
  | [] => Some s
  | t :: r => s <- opt_comp (t_pre t) s ;; s <- sc_jump stop t tb s ;; sc_calls stop tb r s
  end.
Lemma or_calls tb l : forall s, sc_or_calls tb l s = sc_calls true tb l s.
Proof. induction l as [|t r IH]; intros s; [reflexivity|]. cbn [sc_or_calls sc_calls]. destruct (opt_comp (t_pre t) s); [|reflexivity]. cbn [bindo].
  destruct (sc_jump true t tb b); [|reflexivity]. apply IH. Qed.
Lemma implT_calls stop to l : (forall t, In t l -> test_good t) -> forall s s', sc_calls stop to l s = Some s' -> implT (lv L to) (tests_rel stop l) s s'.
Proof.
  induction l as [|t r IH]; intros G s s' H; [injection H as <-; apply implT_skip|]. cbn [sc_calls] in H.
  apply bindo_some in H. destruct H as (s1 & E1 & H). apply bindo_some in H. destruct H as (s2 & E2 & H).
  assert (Gt : test_good t) by (apply G; left; reflexivity). cbn [tests_rel].
  eapply implT_seq; [apply implT_opt; [apply Gt|exact E1]|]. eapply implT_seq; [apply implT_test; [exact Gt|exact E2]|]. apply IH; [intros; apply G; right; auto|exact H].
Qed.
Definition outc (stop b : bool) : outcome := if Bool.eqb b stop then Brk else Norm.
Lemma seq_norm (A B : rel) m m1 o m' : A m Norm m1 -> B m1 o m' -> seq_rel A B m o m'.
Proof. intros H H'. right. eauto. Qed.
Lemma test_hit stop t m m1 : opt_mem (t_patch t) m m1 -> holds (t_neg t) (t_conds t) m1 = stop -> test_rel stop t m Brk m1.
Proof.
  intros A B. eapply seq_norm; [apply opt_rel_mem; exact A|]. unfold stop_when, if_rel. rewrite B, Bool.eqb_reflx. split; reflexivity.
Qed.
Lemma test_miss stop t m m1 : opt_mem (t_patch t) m m1 -> holds (t_neg t) (t_conds t) m1 = negb stop -> test_rel stop t m Norm m1.
Proof.
  intros A B. eapply seq_norm; [apply opt_rel_mem; exact A|]. unfold stop_when, if_rel. rewrite B. destruct stop; split; reflexivity.
Qed.
Lemma seq_brk (A B : rel) m m' : A m Brk m' -> seq_rel A B m Brk m'.
Proof. intros H. left. split; [discriminate|exact H]. Qed.
Lemma evals_rel stop l m b m' : evals stop l m b m' -> tests_rel stop l m (outc stop b) m'.
Proof.
  induction 1 as [m|t r m m1 (m0 & C1 & C2) H|t r m m1 b m' (m0 & C1 & C2) H _ IH].
  - unfold outc. destruct stop; split; reflexivity.
  - unfold outc. rewrite Bool.eqb_reflx. cbn [tests_rel]. eapply seq_norm; [apply opt_rel_mem; exact C1|]. apply seq_brk. apply test_hit; auto.
  - cbn [tests_rel]. eapply seq_norm; [apply opt_rel_mem; exact C1|]. eapply seq_norm; [apply test_miss; eauto|exact IH].
Qed.

(* ---------- actions on the result ---------- *)
(* the action does g to memory and has nothing to do with the control flow *)
Definition writes (c : act) (g : mem -> mem) : Prop :=
  (forall m, acts_do (W_prot w) m [c] (g m)) /\ (forall m1 m, agree priv m1 m -> agree priv (g m1) (g m)) /\ (forall m a, priv a -> get (g m) a = get m a).
Lemma writes_sim c g m1 m : writes c g -> sim m1 m -> sim (g m1) (g m).
Proof. intros (_ & A & B) [S1 S2]. split; [apply A; exact S1|]. intros k l H. rewrite B; [apply S2; exact H|]. left. exists k, l. auto. Qed.
Lemma writes_keep c g m lo hi : writes c g -> keepD L SF lo hi m (g m).
Proof. intros (_ & _ & B) d Hd _. apply B. right. exists d. auto. Qed.
Lemma writes_run c g a x m : writes c g -> W_P w (pa a) = Some (RawTrig [] [c] (pa x)) -> runs w (pa a, m) (pa x, g m).
Proof. intros (A & _) H. eapply run_true with (1 := H); [reflexivity|apply conds_nil|apply A|]. cbn [rd]. apply pa_u32. Qed.

(* a trigger first, then code that may leave to t, where a second trigger waits *)
Lemma flag_acts c1 g1 c2 g2 a a1 t x B lo hi :
  writes c1 g1 -> writes c2 g2 -> W_P w (pa a) = Some (RawTrig [] [c1] (pa a1)) -> W_P w (pa t) = Some (RawTrig [] [c2] (pa x)) ->
  acts B a1 (dst2 t x) lo hi ->
  forall m o m' m1, B (g1 m) o m' -> o <> Cnt -> sim m1 m ->
  exists m1', runs w (pa a, m1) (pa x, m1') /\ sim m1' (match o with Norm => m' | _ => g2 m' end) /\ keepD L SF lo hi m1 m1'.
Proof.
  intros W1 W2 P1 P2 HB m o m' m1 H Ho Hs.
  destruct (HB (g1 m) o m' H (g1 m1)) as (y & X & Y & Z); [eapply writes_sim; eauto|].
  assert (S1 : runs w (pa a, m1) (pa a1, g1 m1)) by (eapply writes_run; eauto).
  assert (K1 : keepD L SF lo hi m1 y) by (eapply keepD_trans; [eapply writes_keep; exact W1|exact Z]).
  destruct o; [| |contradiction].
  - exists y. split; [eapply steps_trans; eauto|]. auto.
  - exists (g2 y). split; [eapply steps_trans; [exact S1|]; eapply steps_trans; [exact X|]; eapply writes_run; eauto|].
    split; [eapply writes_sim; eauto|]. eapply keepD_trans; [exact K1|eapply writes_keep; exact W2].
Qed.

(* ---------- a trigger beside the flow ---------- *)
Definition aside (acts : lay -> list act) (l : loc) (s : bs) : bs :=
  PopTriggerScope (b_pend s) (RawTriggerTo [] acts l (snd (PushTriggerScope s))).
Lemma ext_aside a l s : ext s (aside a l s).
Proof. split; [eexists; reflexivity|]. split; [apply incl_refl|]. split; [apply incl_refl|cbn; lia]. Qed.
Lemma aside_at a l s : ext (aside a l s) SF -> W_P w (pa (TT (pos s))) = Some (RawTrig [] (a L) (pa (lv L l))).
Proof.
  intros E. apply (ext_placed w L SF HL _ (pos s) (fun L => RawTrig [] (a L) (pa (lv L l))) E).
  cbn. rewrite nth_error_app2 by (unfold pos; lia). unfold pos. rewrite Nat.sub_diag. reflexivity.
Qed.
Lemma raw_at acts s :
  ext (RawTrigger [] acts s) SF -> forall x, (forall g, In g (b_pend (RawTrigger [] acts s)) -> R g = x) ->
  (forall g, In g (b_pend s) -> R g = TT (pos s)) /\ W_P w (pa (TT (pos s))) = Some (RawTrig [] (acts L) (pa x)).
Proof.
  intros E x Hx. unfold RawTrigger in E, Hx.
  assert (E1 : ext (emit (fun L => RawTrig [] (acts L) (pa (L_F L (b_nf s)))) s) SF) by (eapply ext_trans; [apply ext_next|exact E]).
  destruct (emit_at w L SF HL _ s E1) as [P1 H1]. split; [exact H1|]. unfold lbl in P1. rewrite P1. rewrite (Hx (b_nf s)); [reflexivity|]. cbn. left. reflexivity.
Qed.

(* ---------- EUDSCOr ---------- *)
Definition or_sem (gc gs : mem -> mem) (l : list test) (m m' : mem) : Prop :=
  exists b m2, evals true l (gc m) b m2 /\ m' = if b then gs m2 else m2.
Lemma impl_or e k gc gs l en s s' :
  writes (lb_Clear e k) gc -> writes (lb_Set e k) gs -> (forall t, In t l -> test_good t) ->
  EUDSCOr e k l s = Some s' -> impl (done (or_sem gc gs l)) en s s'.
Proof.
  intros WC WS G H. unfold EUDSCOr in H. cbn [Forward] in H.
  set (jb := b_nf s) in H. set (s1 := mkbs (b_trs s) (b_pend s) (b_sets s) (S jb) (b_nd s) (b_init s)) in H.
  set (s2 := RawTrigger [] (fun _ => [lb_Clear e k]) s1) in H.
  change (PushTriggerScope s2) with (b_pend s2, snd (PushTriggerScope s2)) in H. cbv iota beta zeta in H.
  change (PopTriggerScope (b_pend s2) (RawTriggerTo [] (fun _ => [lb_Set e k]) (F jb) (snd (PushTriggerScope s2)))) with (aside (fun _ => [lb_Set e k]) (F jb) s2) in H.
  change (pos (snd (PushTriggerScope s2))) with (pos s2) in H.
  apply bindo_some in H. destruct H as (s4 & C & H). rewrite or_calls in C.
  set (s3 := aside (fun _ => [lb_Set e k]) (F jb) s2) in *.
  set (s5 := snd (NextTrigger s4)). set (s6 := fset jb (F (b_nf s4)) s5).
  change (Some s6 = Some s') in H. assert (ES : s' = s6) by congruence. clear H. subst s'.
  destruct (implT_calls true (P (pos s2)) l G s3 s4 C) as (E34 & NE & A34). cbn [lv] in A34.
  assert (E46 : ext s4 s6) by (eapply ext_trans; [apply ext_next|apply ext_fset]).
  assert (E02 : ext s s2) by (eapply ext_trans; [apply (ext_forward s)|apply ext_raw]).
  assert (E23 : ext s2 s3) by apply ext_aside.
  split; [eapply ext_trans; [exact E02|]; eapply ext_trans; [exact E23|]; eapply ext_trans; eauto|].
  split; [intros _ _; cbn; destruct (b_pend s4); discriminate|].
  intros X x Hx.
  assert (X4 : ext s4 SF) by (eapply ext_trans; eauto). assert (X3 : ext s3 SF) by (eapply ext_trans; eauto). assert (X2 : ext s2 SF) by (eapply ext_trans; eauto).
  assert (Hjb : R jb = x).
  { rewrite (ext_set w L SF HL s6 jb (F (b_nf s4)) X) by (left; reflexivity). cbn [lv]. apply Hx. cbn. apply in_or_app. right. left. reflexivity. }
  destruct (A34 X4 x) as (a & Pa & Aa); [intros f Hf; apply Hx; cbn; apply in_or_app; left; exact Hf|].
  specialize (Aa ltac:(discriminate)).
  destruct (raw_at (fun _ => [lb_Clear e k]) s1 X2 a) as [P1 Q1]; [intros g Hg; apply Pa; exact Hg|].
  pose proof (aside_at _ _ _ X3) as Q2. cbn [lv] in Q2. rewrite Hjb in Q2.
  exists (TT (pos s1)). split; [exact P1|]. intros _ m o m' [-> (b & m2 & EV & ->)] m1 Hs. cbn [dest].
  destruct (flag_acts _ gc _ gs (TT (pos s1)) a (TT (pos s2)) x (tests_rel true l) (b_nd s3) (b_nd s4) WC WS Q1 Q2 Aa m (outc true b) m2 m1) as (y & Y1 & Y2 & Y3).
  - apply evals_rel. exact EV.
  - destruct b; discriminate.
  - exact Hs.
  - exists y. split; [exact Y1|]. split; [destruct b; exact Y2|exact Y3].
Qed.

(* ---------- EUDSCAnd ---------- *)
(* the code has a trigger: what was waiting before does not wait afterwards *)
Definition emits (p : stmt) : Prop := forall s s' f, comp None p s = Some s' -> In f (b_pend s) -> (f < b_nf s)%nat -> ~ In f (b_pend s').
(* the negated condition is the negation (property C22) *)
Definition flip_ok (t : test) : Prop := forall c, t_flip t = Some c -> cgood c /\ forall m, eval_cond m c = negb (forallb (eval_cond m) (t_conds t)).
Definition and_good (t : test) : Prop := test_good t /\ flip_ok t /\ match t_pre t with Some p => emits p | None => True end.
(* nothing to compute, and can be negated if it must be *)
Definition const_test (t : test) : bool :=
  match t_pre t, t_patch t with None, None => match t_flip t with Some _ => true | None => negb (t_neg t) end | _, _ => false end.
Definition result_conds (t : test) : list cond :=
  if t_neg t then match t_flip t with Some c => [c] | None => [] end else t_conds t.

Lemma nonconst_calls v l : forall a s a' s', sa_const a = false -> sa_calls v l a s = Some (a', s') -> a' = a /\ sc_calls false (P (sa_fb a)) l s = Some s'.
Proof.
  induction l as [|t r IH]; intros a s a' s' Hc H; cbn [sa_calls sc_calls] in *; [split; congruence|].
  destruct (opt_comp (t_pre t) s) as [s1|]; cbn [bindo] in *; [|discriminate]. unfold sa_call in H. rewrite Hc in H. cbn [negb] in H.
  destruct (sc_jump false t (P (sa_fb a)) s1) as [s2|]; cbn [bindo fst snd] in *; [|discriminate]. apply IH; auto.
Qed.

Section AndRun.
Variable v : Z.
Variable g1 g0 : mem -> mem.
Hypothesis W1 : writes (SetNumber v 1) g1.
Hypothesis W0 : writes (SetNumber v 0) g0.

Definition flush_rel (cs : list cond) : rel := stop_when false false cs.
Lemma implT_flush a a' s s' : (forall c, In c (sa_cond a) -> cgood c) -> sa_flush a s = (a', s') ->
  implT (TT (sa_fb a)) (flush_rel (sa_cond a)) s s' /\ sa_const a' = sa_const a /\ sa_cond a' = [] /\ sa_side a' = sa_side a /\ sa_fb a' = sa_fb a /\ sa_jb a' = sa_jb a /\ (b_pend s <> [] -> b_pend s' <> []).
Proof.
  unfold sa_flush. intros G H. destruct (sa_cond a) as [|c cs] eqn:E.
  - injection H as <- <-. split; [|auto 10]. split; [apply ext_refl|]. split; [auto|]. intros _ x Hx. exists x. split; [exact Hx|]. intros _.
    intros m o m' Q. apply (acts_skip w L SF x (dst2 (TT (sa_fb a)) x)); [reflexivity|exact Q].
  - injection H as <- <-. split; [exact (implT_jump false false (c :: cs) (P (sa_fb a)) s G)|]. cbn [sa_const sa_cond sa_side sa_fb sa_jb]. do 5 (split; [reflexivity|]).
    intros _. destruct (jump_pend false (konst (c :: cs)) (P (sa_fb a)) s) as [g Hg]. eapply in_nonempty; exact Hg.
Qed.

Lemma patch_flush a s a1 s1 a2 s2 :
  (forall c, In c (sa_cond a) -> cgood c) -> sa_patch v a s = (a1, s1) -> sa_flush a1 s1 = (a2, s2) ->
  sa_fb a2 = pos s /\ sa_cond a2 = [] /\ sa_const a2 = false /\ sa_jb a2 = b_nf s /\ sa_side a2 = sa_side a /\ ext s s2 /\ b_pend s2 <> [] /\
  (ext s2 SF -> forall x, (forall f, In f (b_pend s2) -> R f = x) ->
   (forall f, In f (sa_outer a) -> R f = TT (S (pos s))) /\
   W_P w (pa (TT (pos s))) = Some (RawTrig [] [SetNumber v 0] (pa (R (b_nf s)))) /\
   exists y, W_P w (pa (TT (S (pos s)))) = Some (RawTrig [] [SetNumber v 1] (pa y)) /\ acts (flush_rel (sa_cond a)) y (dst2 (TT (pos s)) x) (b_nd s) (b_nd s2)).
Proof.
  intros G HP HF. unfold sa_patch in HP. cbn [Forward] in HP.
  set (jb := b_nf s) in *. set (t0 := mkbs (b_trs s) (b_pend s) (b_sets s) (S jb) (b_nd s) (b_init s)) in HP.
  set (t1 := RawTriggerTo [] (fun _ => [SetNumber v 0]) (F jb) t0) in HP. set (t2 := PopTriggerScope (sa_outer a) t1) in HP.
  assert (EA : a1 = mksca false (sa_cond a) (sa_outer a) (sa_side a) (pos t0) jb) by congruence.
  assert (ES : s1 = RawTrigger [] (fun _ => [SetNumber v 1]) t2) by congruence. clear HP.
  change (pos t0) with (pos s) in EA.
  destruct (implT_flush a1 a2 s1 s2) as ((E12 & _ & A12) & Q1 & Q2 & Q3 & Q4 & Q5 & Q6); [rewrite EA; exact G|exact HF|]. rewrite EA in Q1, Q3, Q4, Q5, A12. cbn [sa_const sa_side sa_fb sa_jb sa_cond] in *.
  assert (E01 : ext s t1) by (eapply ext_trans; [apply (ext_forward s)|apply ext_rawto]).
  assert (E1 : ext t1 t2) by (split; [exists []; rewrite app_nil_r; reflexivity|]; split; [apply incl_refl|]; split; [apply incl_refl|cbn; lia]).
  assert (E2 : ext t2 s1) by (rewrite ES; apply ext_raw).
  assert (E02 : ext s s2) by exact (ext_trans _ _ _ E01 (ext_trans _ _ _ E1 (ext_trans _ _ _ E2 E12))).
  assert (NE : b_pend s1 <> []) by (rewrite ES; cbn; discriminate).
  do 5 (split; [assumption|]). split; [exact E02|]. split; [apply Q6; exact NE|].
  intros X x Hx. assert (Xs1 : ext s1 SF) by exact (ext_trans _ _ _ E12 X). assert (X2 : ext t2 SF) by exact (ext_trans _ _ _ E2 Xs1). assert (X1 : ext t1 SF) by exact (ext_trans _ _ _ E1 X2).
  destruct (A12 X x Hx) as (y & Py & Ay). specialize (Ay NE).
  destruct (raw_at (fun _ => [SetNumber v 1]) t2) with (x := y) as [R1 R2]; [rewrite <- ES; exact Xs1|rewrite <- ES; exact Py|].
  assert (PT : pos t2 = S (pos s)) by (unfold t2, t1, pos; cbn; rewrite app_length; cbn; lia). rewrite PT in *.
  split; [exact R1|]. split.
  - destruct (emit_at w L SF HL _ _ X1) as [Z _]. exact Z.
  - exists y. split; [exact R2|]. eapply acts_wide; [exact Ay|rewrite ES; apply Nat.le_refl|apply Nat.le_refl].
Qed.

Definition and_sem (cs : list cond) (l : list test) (m m' : mem) : Prop :=
  if forallb const_test l then m' = m
  else exists b m2, (if forallb (eval_cond (g1 m)) cs then evals false l (g1 m) b m2 else b = false /\ m2 = g1 m) /\ m' = if b then m2 else g0 m2.
Lemma and_seq cs l m b m2 :
  (if forallb (eval_cond m) cs then evals false l m b m2 else b = false /\ m2 = m) -> seq_rel (flush_rel cs) (tests_rel false l) m (outc false b) m2.
Proof.
  intros H. destruct (forallb (eval_cond m) cs) eqn:E.
  - eapply seq_norm; [|apply evals_rel; exact H]. unfold flush_rel, stop_when, if_rel, holds. rewrite E. split; reflexivity.
  - destruct H as [-> ->]. apply seq_brk. unfold flush_rel, stop_when, if_rel, holds. rewrite E. split; reflexivity.
Qed.
Lemma and_finish cs l y a t x lo hi : forallb const_test l = false ->
  W_P w (pa t) = Some (RawTrig [] [SetNumber v 0] (pa x)) -> W_P w (pa y) = Some (RawTrig [] [SetNumber v 1] (pa a)) ->
  acts (seq_rel (flush_rel cs) (tests_rel false l)) a (dst2 t x) lo hi -> acts (done (and_sem cs l)) y (fun _ => x) lo hi.
Proof.
  intros HC P0 P1 HA m o m' [-> HS] m1 Hs. unfold and_sem in HS. rewrite HC in HS. destruct HS as (b & m2 & H & ->). apply and_seq in H.
  destruct (flag_acts _ g1 _ g0 y a t x _ lo hi W1 W0 P1 P0 HA m (outc false b) m2 m1 H) as (z & Z1 & Z2 & Z3); [destruct b; discriminate|exact Hs|].
  exists z. split; [exact Z1|]. split; [destruct b; exact Z2|exact Z3].
Qed.
(* the calls after the first one that needs code, and the last call *)
Lemma and_rest r a s s' res : sa_const a = false -> sa_cond a = [] ->
  (x <- sa_calls v r a s ;; Some (sa_result v (fst x) (snd x))) = Some (res, s') ->
  res = [CondM v AtLeast 1] /\ exists s1, sc_calls false (P (sa_fb a)) r s = Some s1 /\ s' = fset (sa_jb a) (F (b_nf s1)) (snd (NextTrigger s1)).
Proof.
  intros H1 H2 H. apply bindo_some in H. destruct H as ([a' s1] & E & H). cbn [fst snd] in H. destruct (nonconst_calls v r a s a' s1 H1 E) as [-> C].
  unfold sa_result, sa_flush in H. rewrite H1, H2 in H. change (Some ([CondM v AtLeast 1], fset (sa_jb a) (F (b_nf s1)) (snd (NextTrigger s1))) = Some (res, s')) in H.
  split; [congruence|]. exists s1. split; [exact C|congruence].
Qed.
Definition conclusion (cs : list cond) (l : list test) (outer : list nat) (s s' : bs) (res : list cond) : Prop :=
  ext s s' /\ (outer <> [] -> b_pend s' <> []) /\
  res = (if forallb const_test l then cs ++ concat (map result_conds l) else [CondM v AtLeast 1]) /\
  (ext s' SF -> forall x, (forall f, In f (b_pend s') -> R f = x) ->
   exists y, (forall f, In f outer -> R f = y) /\ acts (done (and_sem cs l)) y (fun _ => x) (b_nd s) (b_nd s')).
(* s0: before the code of the argument; s1: after it and before sa_patch *)
Lemma and_code a t r s0 s1 s2 a3 s3 a4 s4 s5 s6 s' res :
  (forall c, In c (sa_cond a) -> cgood c) -> (forall u, In u (t :: r) -> test_good u) -> const_test t = false ->
  ext s0 s1 -> ext s1 s2 -> sa_patch v a s2 = (a3, s3) -> sa_flush a3 s3 = (a4, s4) -> ext s4 s5 -> b_pend s5 <> [] ->
  (ext s5 SF -> forall z, (forall f, In f (b_pend s5) -> R f = z) ->
    exists p, (forall f, In f (b_pend s4) -> R f = p) /\ forall d, d Norm = z -> acts (opt_rel (t_pre t)) p d (b_nd s0) (b_nd s1)) ->
  sc_jump false t (P (sa_fb a4)) s5 = Some s6 ->
  (x <- sa_calls v r a4 s6 ;; Some (sa_result v (fst x) (snd x))) = Some (res, s') ->
  conclusion (sa_cond a) (t :: r) (sa_outer a) s0 s' res.
Proof.
  intros G GT HC E01 E12 HP HF E45 N5 Hpre HJ HR.
  destruct (patch_flush a s2 a3 s3 a4 s4 G HP HF) as (B1 & B2 & B3 & B4 & B5 & E24 & N4 & PF).
  destruct (and_rest r a4 s6 s' res B3 B2 HR) as (-> & s7 & C7 & ES).
  assert (I56 : implT (TT (sa_fb a4)) (test_rel false t) s5 s6) by (apply (implT_test false t (P (sa_fb a4)) s5 s6); [apply GT; left; reflexivity|exact HJ]).
  assert (I67 : implT (TT (sa_fb a4)) (tests_rel false r) s6 s7) by (apply (implT_calls false (P (sa_fb a4)) r); [intros; apply GT; right; auto|exact C7]).
  destruct (implT_seq _ _ _ _ _ _ I56 I67) as (E57 & _ & A57). rewrite B1 in *. rewrite B4 in ES.
  assert (E78 : ext s7 s') by (rewrite ES; eapply ext_trans; [apply ext_next|apply ext_fset]).
  assert (E04 : ext s0 s4) by (eapply ext_trans; [exact E01|]; eapply ext_trans; [exact E12|exact E24]).
  assert (E47 : ext s4 s7) by exact (ext_trans _ _ _ E45 E57).
  assert (HCL : forallb const_test (t :: r) = false) by (cbn [forallb]; rewrite HC; reflexivity).
  split; [exact (ext_trans _ _ _ E04 (ext_trans _ _ _ E47 E78))|].
  split; [intros _; rewrite ES; cbn; destruct (b_pend s7); discriminate|]. split; [rewrite HCL; reflexivity|].
  intros X x Hx. assert (X7 : ext s7 SF) by exact (ext_trans _ _ _ E78 X). assert (X5 : ext s5 SF) by exact (ext_trans _ _ _ E57 X7). assert (X4 : ext s4 SF) by exact (ext_trans _ _ _ E45 X5).
  assert (Hjb : R (b_nf s2) = x).
  { rewrite (ext_set w L SF HL s' (b_nf s2) (F (b_nf s7)) X) by (rewrite ES; left; reflexivity). cbn [lv]. apply Hx. rewrite ES. cbn. apply in_or_app. right. left. reflexivity. }
  destruct (A57 X7 x) as (z & Pz & Az); [intros f Hf; apply Hx; rewrite ES; cbn; apply in_or_app; left; exact Hf|]. specialize (Az N5).
  destruct (Hpre X5 z Pz) as (p & Pp & Ap).
  destruct (PF X4 p Pp) as (PO & PW0 & y & PW1 & Ay). rewrite Hjb in PW0.
  exists (TT (S (pos s2))). split; [exact PO|].
  assert (N01 : (b_nd s0 <= b_nd s1)%nat) by apply E01. assert (N12 : (b_nd s1 <= b_nd s2)%nat) by apply E12. assert (N24 : (b_nd s2 <= b_nd s4)%nat) by apply E24.
  assert (N45 : (b_nd s4 <= b_nd s5)%nat) by apply E45. assert (N57 : (b_nd s5 <= b_nd s7)%nat) by apply E57. assert (N78 : (b_nd s7 <= b_nd s')%nat) by apply E78.
  eapply and_finish; [exact HCL|exact PW0|exact PW1|].
  apply acts_seq with (b := p).
  - eapply acts_wide with (lo := b_nd s2) (hi := b_nd s4); [|lia|lia]. intros m o m' Q u Hu. destruct (Ay m o m' Q u Hu) as (k & K1 & K2). exists k. split; [destruct o; exact K1|exact K2].
  - intros _. cbn [tests_rel]. apply acts_seq with (b := z).
    + eapply acts_wide with (lo := b_nd s0) (hi := b_nd s1); [apply Ap; reflexivity|lia|lia].
    + intros _. eapply acts_wide; [exact Az|lia|lia].
Qed.

Lemma evals_const t r m b m2 : const_test t = true -> flip_ok t ->
  (if forallb (eval_cond m) (result_conds t) then evals false r m b m2 else b = false /\ m2 = m) <-> evals false (t :: r) m b m2.
Proof.
  intros HC FO. unfold const_test in HC. destruct (t_pre t) eqn:E1; [discriminate|]. destruct (t_patch t) eqn:E2; [discriminate|].
  assert (CV : forallb (eval_cond m) (result_conds t) = holds (t_neg t) (t_conds t) m).
  { unfold result_conds, holds. destruct (t_neg t); [|destruct (forallb (eval_cond m) (t_conds t)); reflexivity]. destruct (t_flip t) as [c|] eqn:F; [|discriminate]. cbn [forallb]. destruct (FO c F) as [_ ->]. rewrite andb_true_r. destruct (forallb (eval_cond m) (t_conds t)); reflexivity. }
  assert (CM : forall m1, computed t m m1 <-> m1 = m).
  { intros m1. unfold computed. rewrite E1, E2. cbn [opt_mem]. split; [intros (k & -> & ->); reflexivity|intros ->; exists m; auto]. }
  rewrite CV. split.
  - destruct (holds (t_neg t) (t_conds t) m) eqn:Q.
    + intros H. eapply ev_go; [apply CM; reflexivity|exact Q|exact H].
    + intros [-> ->]. apply ev_stop; [apply CM; reflexivity|exact Q].
  - intros H. inversion H as [|? ? ? ? C Q|? ? ? m1 ? ? C Q EV]; subst.
    + apply CM in C. subst. rewrite Q. auto.
    + apply CM in C. subst. rewrite Q. exact EV.
Qed.
Lemma and_sem_const cs t r m m' : const_test t = true -> flip_ok t -> and_sem (cs ++ result_conds t) r m m' <-> and_sem cs (t :: r) m m'.
Proof.
  intros HC FO. unfold and_sem. cbn [forallb]. rewrite HC. cbn [andb]. destruct (forallb const_test r); [reflexivity|].
  split; intros (b & m2 & H & ->); exists b, m2; (split; [|reflexivity]); rewrite ?forallb_app in *; destruct (forallb (eval_cond (g1 m)) cs); cbn [andb] in *; try exact H.
  - apply evals_const; auto.
  - apply evals_const in H; auto.
Qed.

Lemma only_self f : only [f] f = true.
Proof. cbn. apply Nat.eqb_refl. Qed.
Lemma only_not l f : ~ In f l -> only l f = false.
Proof. intros H. destruct l as [|g [|? ?]]; [reflexivity| |reflexivity]. cbn. apply Nat.eqb_neq. intros ->. apply H. left. reflexivity. Qed.

Lemma and_calls l : (forall t, In t l -> and_good t) -> forall a s s' res,
  sa_const a = true -> (forall c, In c (sa_cond a) -> cgood c) -> b_pend s = [sa_side a] -> (sa_side a < b_nf s)%nat ->
  (x <- sa_calls v l a s ;; Some (sa_result v (fst x) (snd x))) = Some (res, s') ->
  conclusion (sa_cond a) l (sa_outer a) s s' res.
Proof.
  induction l as [|t r IH]; intros G a s s' res HA Gc Hp Hn H.
  - cbn [sa_calls bindo fst snd] in H. unfold sa_result in H. rewrite HA in H.
    assert (Hr : res = sa_cond a) by congruence. assert (ES : s' = PopTriggerScope (sa_outer a) s) by congruence. clear H. subst res s'.
    split; [split; [exists []; rewrite app_nil_r; reflexivity|]; split; [cbn; apply incl_appr, incl_refl|]; split; [apply incl_refl|cbn; lia]|].
    split; [auto|]. split; [cbn; rewrite app_nil_r; reflexivity|]. intros X x Hx. exists x. split; [exact Hx|].
    intros m o m' [-> Hs] m1 Hsim. cbn in Hs. subst m'. exists m1. split; [apply steps_refl|]. split; [exact Hsim|apply keepD_refl].
  - destruct (G t (or_introl eq_refl)) as (GT & FO & EM).
    assert (GA : forall u, In u (t :: r) -> test_good u) by (intros u Hu; apply (G u Hu)).
    cbn [sa_calls] in H. destruct (t_pre t) as [p|] eqn:EP.
    + (* code for the argument *)
      cbn [opt_comp] in H. destruct (comp None p s) as [sp|] eqn:EC; [|discriminate]. cbn [bindo] in H.
      assert (NI : ~ In (sa_side a) (b_pend sp)) by (apply (EM s sp); [exact EC|rewrite Hp; left; reflexivity|exact Hn]).
      assert (HC : const_test t = false) by (unfold const_test; rewrite EP; reflexivity).
      unfold sa_call in H. rewrite HA in H. cbn [negb] in H. rewrite (only_not _ _ NI) in H. cbn [negb Forward] in H.
      set (ic := b_nf sp) in H. set (s1 := mkbs (b_trs sp) (b_pend sp) (b_sets sp) (S ic) (b_nd sp) (b_init sp)) in H.
      set (s2 := SetNextTrigger (F ic) s1) in H.
      destruct (sa_patch v a s2) as [a3 s3] eqn:HP. destruct (sa_flush a3 s3) as [a4 s4] eqn:HF.
      set (sq := SetNextTrigger (F (sa_side a4)) s4) in H.
      change (NextTrigger sq) with (b_nf sq, snd (NextTrigger sq)) in H. cbv iota beta zeta in H.
      set (s5 := fset ic (F (b_nf sq)) (snd (NextTrigger sq))) in H.
      destruct (sc_jump false t (P (sa_fb a4)) s5) as [s6|] eqn:HJ; [|discriminate]. cbn [bindo fst snd] in H.
      destruct (patch_flush a s2 a3 s3 a4 s4 Gc HP HF) as (_ & _ & _ & _ & SD & _ & N4 & _).
      assert (ESP : ext s sp) by (exact (impl_ext w L SF _ None s sp (comp_ok w L SF HL Hinit p None s sp ltac:(destruct GT as (GP & _); rewrite EP in GP; exact GP) EC))).
      assert (E12 : ext sp s2) by (eapply ext_trans; [apply (ext_forward sp)|apply ext_setnext]).
      assert (E4q : ext s4 sq) by apply ext_setnext.
      assert (Eq5 : ext sq s5) by (eapply ext_trans; [apply ext_next|apply ext_fset]).
      assert (E2q : ext s2 s4) by (eapply patch_flush; eauto).
      eapply (and_code a t r s sp s2 a3 s3 a4 s4 s5 s6 s' res); try eassumption.
      * exact (ext_trans _ _ _ E4q Eq5).
      * cbn. discriminate.
      * intros X5 z Pz. assert (Xq : ext sq SF) by exact (ext_trans _ _ _ Eq5 X5). assert (X4 : ext s4 SF) by exact (ext_trans _ _ _ E4q Xq).
        assert (X2 : ext s2 SF) by exact (ext_trans _ _ _ E2q X4).
        assert (Hic : R ic = z). { rewrite (ext_set w L SF HL s5 ic (F (b_nf sq)) X5) by (left; reflexivity). cbn [lv]. apply Pz. cbn. left. reflexivity. }
        assert (Xp : ext sp SF) by exact (ext_trans _ _ _ E12 X2).
        destruct (comp_ok w L SF HL Hinit p None s sp ltac:(destruct GT as (GP & _); rewrite EP in GP; exact GP) EC) as (_ & _ & AP).
        destruct (AP Xp z) as (q & Pq & Aq). { intros f Hf. rewrite <- Hic. exact (pend_set w L SF HL s1 (F ic) f X2 Hf). }
        exists q. split.
        -- intros f Hf. rewrite (pend_set w L SF HL s4 (F (sa_side a4)) f Xq Hf). cbn [lv]. rewrite SD. apply Pq. rewrite Hp. left. reflexivity.
        -- intros d Hd m o m' Q m1 Hs. rewrite EP in Q. destruct Q as [-> Q]. rewrite Hd. apply (Aq ltac:(rewrite Hp; discriminate) m Norm m' Q m1 Hs).
    + (* no code for the argument *)
      cbn [opt_comp bindo] in H. unfold sa_call in H. rewrite HA, Hp, only_self in H. cbn [negb] in H.
      assert (CASE : (const_test t = true /\ (x <- sa_calls v r (sa_add a (result_conds t)) s ;; Some (sa_result v (fst x) (snd x))) = Some (res, s')) \/
                     (const_test t = false /\ exists a3 s3 a4 s4 s6, sa_patch v a s = (a3, s3) /\ sa_flush a3 s3 = (a4, s4) /\ sc_jump false t (P (sa_fb a4)) s4 = Some s6 /\
                        (x <- sa_calls v r a4 s6 ;; Some (sa_result v (fst x) (snd x))) = Some (res, s'))).
      { unfold const_test, result_conds. rewrite EP. destruct (sa_patch v a s) as [a3 s3] eqn:HP. destruct (sa_flush a3 s3) as [a4 s4] eqn:HF.
        destruct (t_patch t) as [pp|]; [|destruct (t_neg t); [destruct (t_flip t) as [c|]|]].
        - right. split; [reflexivity|]. destruct (sc_jump false t (P (sa_fb a4)) s4) as [s6|] eqn:HJ; [|discriminate]. exists a3, s3, a4, s4, s6. auto.
        - left. split; [reflexivity|]. exact H.
        - right. split; [reflexivity|]. destruct (sc_jump false t (P (sa_fb a4)) s4) as [s6|] eqn:HJ; [|discriminate]. exists a3, s3, a4, s4, s6. auto.
        - left. split; [destruct (t_flip t); reflexivity|]. exact H. }
      destruct CASE as [[HC HR]|(HC & a3 & s3 & a4 & s4 & s6 & HP & HF & HJ & HR)].
      * assert (GC' : forall c, In c (sa_cond (sa_add a (result_conds t))) -> cgood c).
        { cbn [sa_add sa_cond]. intros c Hc. apply in_app_or in Hc. destruct Hc as [Hc|Hc]; [apply Gc; exact Hc|].
          unfold result_conds in Hc. destruct (t_neg t); [|apply GT; exact Hc]. destruct (t_flip t) as [c'|] eqn:F; [|destruct Hc]. destruct Hc as [<-|[]]. apply (FO c' F). }
        destruct (IH (fun u Hu => G u (or_intror Hu)) (sa_add a (result_conds t)) s s' res HA GC' Hp Hn HR) as (C1 & C2 & C3 & C4).
        split; [exact C1|]. split; [exact C2|]. split.
        -- rewrite C3. cbn [forallb map concat sa_add sa_cond]. rewrite HC, app_assoc. reflexivity.
        -- intros X x Hx. destruct (C4 X x Hx) as (y & Py & Ay). exists y. split; [exact Py|]. intros m o m' [-> Hs]. apply (Ay m Norm m'). split; [reflexivity|].
           cbn [sa_add sa_cond]. apply and_sem_const; auto.
      * eapply (and_code a t r s s s a3 s3 a4 s4 s4 s6 s' res); try eassumption; try apply ext_refl.
        -- eapply patch_flush; eauto.
        -- intros X z Pz. exists z. split; [exact Pz|]. intros d Hd. rewrite EP. apply acts_skip. exact Hd.
Qed.

Lemma impl_and l en s s' res : (forall t, In t l -> and_good t) -> EUDSCAnd v l s = Some (res, s') ->
  impl (done (and_sem [] l)) en s s' /\ res = (if forallb const_test l then concat (map result_conds l) else [CondM v AtLeast 1]).
Proof.
  intros G H. unfold EUDSCAnd, sa_new in H. cbn [PushTriggerScope NextTrigger b_nf b_pend app] in H. cbv iota beta zeta in H.
  set (s1 := mkbs _ _ _ _ _ _) in H. set (a := mksca _ _ _ _ _ _) in H.
  destruct (and_calls l G a s1 s' res) as (C1 & C2 & C3 & C4); try exact H; try reflexivity.
  - intros c [].
  - cbn. lia.
  - cbn [sa_cond a app] in C3. split; [|exact C3].
    assert (E : ext s s1) by (split; [exists []; rewrite app_nil_r; reflexivity|]; split; [apply incl_refl|]; split; [apply incl_refl|cbn; lia]).
    split; [exact (ext_trans _ _ _ E C1)|]. split; [intros N _; apply C2; exact N|]. intros X x Hx. destruct (C4 X x Hx) as (y & Py & Ay). exists y. split; [exact Py|].
    intros _ m o m' [-> Q] m1 Hs. cbn [dest]. exact (Ay m Norm m' (conj eq_refl Q) m1 Hs).
Qed.
End AndRun.

(* ---------- EUDTernary ---------- *)
Lemma impl_ternary neg cs on1 on2 en s s' : (forall c, In c cs -> cgood c) -> goodp (parts on1) -> goodp (parts on2) ->
  EUDTernary neg cs on1 on2 s = Some s' -> impl (done (fun m m' => if holds neg cs m then den on1 m Norm m' else den on2 m Norm m')) en s s'.
Proof.
  intros Gc G1 G2 H. unfold EUDTernary in H. cbn [Forward b_nf] in H.
  set (t := b_nf s) in H. set (s1 := mkbs _ _ _ _ _ _) in H.
  apply bindo_some in H. destruct H as (s2 & C1 & H). unfold NextTrigger at 1 in H.
  apply bindo_some in H. destruct H as (s3 & C2 & H).
  change (Some (end_if None (S t) s3) = Some s') in H. assert (ES : s' = end_if None (S t) s3) by congruence. clear H. subst s'.
  change (comp None on2 (elsehead (S t) t s2) = Some s3) in C2.
  assert (I : impl (if_rel (holds neg cs) (den on1) (den on2)) None s1 (end_if None (S t) s3)).
  { eapply (implc_if w L SF HL Hinit) with (s2' := s2); [exact Gc|reflexivity|apply (comp_ok w L SF HL Hinit on1 None); [exact G1|exact C1]|].
    apply (implc_else w L SF HL). apply (comp_ok w L SF HL Hinit on2 None); [exact G2|exact C2]. }
  destruct I as (E & _ & A).
  split; [eapply ext_trans; [|exact E]; eapply ext_trans; [apply (ext_forward s)|apply ext_forward]|].
  split; [intros _ _; cbn; destruct (b_pend s3); discriminate|].
  intros X x Hx. destruct (A X x Hx) as (a & Pa & Aa). exists a. split; [exact Pa|]. intros Hn m o m' [-> Q] m1 Hs.
  apply (Aa Hn m Norm m'); [unfold if_rel; exact Q|exact Hs].
Qed.
End Run.
