(* C20: structured control flow. *)
From Coq Require Import ZArith Lia List Bool Permutation ZifyBool ZifyNat.
From Verif Require Import Lib Word Machine MachineProofs VarModel VarSpec VarProofs OpsBase FuncModel ExWorld.
From Verif Require Import StruModel StruSpec StruProofs StruComp StruMain.
Import ListNotations.
Open Scope Z_scope.

(* A fresh trigger scope with one Forward (number 0) to the first trigger. *)
Definition start : bs := snd (NextTrigger (mkbs [] [] [] 0 0 [])).
Lemma start_inv : inv [] start.
Proof. split; [split; [constructor|intros k []]|]. apply Permutation_refl. Qed.

(* Conditions and leaves of the program: the conditions do not look at next
   pointers or loop counters of the generated code (and are not disabled), the
   leaves do what they are meant to do and do not change them. *)
Definition good (w : world) (L : lay) (s : bs) (p : stmt) : Prop :=
  (forall c, In c (fst (parts p)) -> lgood w L s c) /\ (forall c, In c (snd (parts p)) -> cgood L s c).

(* leaf_inv l: generating a leaf sets each Forward it makes once and touches no
   others (inv, StruMain.v). *)
(* Code generation succeeds exactly for programs whose break and continue are
   inside loops. Every Forward it makes is set exactly once, or is one of those
   waiting for the next trigger; each trigger has at most one rewritten next
   pointer. *)
Theorem C20_generates p :
  (in_loops false p = true -> exists s, comp None p start = Some s) /\
  (in_loops false p = false -> comp None p start = None) /\
  (leaf_inv (fst (parts p)) -> forall s, comp None p start = Some s ->
    Permutation (map fst (b_sets s) ++ b_pend s) (seq 0 (b_nf s)) /\ NoDup (map fst (b_init s)) /\ (forall k l, In (k, l) (b_init s) -> (k < pos s)%nat)).
Proof.
  split; [apply (comp_total p None start)|]. split; [apply (comp_none p None start)|].
  intros HV s H. destruct (comp_inv p HV None start s [] H start_inv) as [[A1 A2] B]. unfold fw_inv in B. rewrite app_nil_r in B.
  split; [exact B|]. split; [exact A1|]. intros k l Hk. apply A2. apply in_map_iff. exists (k, l). auto.
Qed.
Print Assumptions C20_generates.

(* The generated code, wherever it is placed, does what the program means: if
   the program, started with memory m, ends normally with memory m', the code
   started at its entry runs to what follows it and leaves memory m'. Memory is
   compared outside the next pointers and loop counters of the code, and the next
   pointers are back to their first values afterwards, so that the code can be run
   again. *)
Theorem C20_structured p s w L x :
  comp None p start = Some s -> leaf_inv (fst (parts p)) -> linked w L s -> (forall f, In f (b_pend s) -> L_F L f = x) -> good w L s p ->
  forall m m', den p m Norm m' -> forall m1, sim L s m1 m ->
  exists m1', runs w (pa (L_F L 0%nat), m1) (pa x, m1') /\ sim L s m1' m'.
Proof.
  intros HC HV HL Hx HG m m' HD m1 HS.
  destruct (C20_generates p) as (_ & _ & GI). destruct (GI HV s HC) as (_ & ND & _).
  destruct (comp_ok w L s HL ND p None start s HG HC) as (E & Hp & HI).
  destruct (HI (ext_refl s) x Hx) as (a & Ha & HA).
  specialize (HA ltac:(discriminate)). destruct (HA m Norm m' HD m1 HS) as (m1' & R1 & S1 & _).
  exists m1'. split; [|exact S1]. rewrite (Ha 0%nat) by (left; reflexivity). exact R1.
Qed.
Print Assumptions C20_structured.

(* The meaning of a program does not leave anything open: at most one outcome
   and one memory. *)
Theorem C20_meaning_unique p m o1 m1 o2 m2 :
  leaf_det (fst (parts p)) -> den p m o1 m1 -> den p m o2 m2 -> o1 = o2 /\ m1 = m2.
Proof. intros H. apply (den_det p H). Qed.
Print Assumptions C20_meaning_unique.

(* If / ElseIf / Else: exactly the first branch whose conditions hold. *)
Fixpoint mkchain (l : list (bool * list cond * stmt)) (els : option stmt) : chain :=
  match l with
  | [] => match els with Some p => CElse p | None => CEnd end
  | (neg, cs, body) :: r => CElif neg SSkip cs body (mkchain r els)
  end.
Definition ifs (b : bool * list cond * stmt) (l : list (bool * list cond * stmt)) (els : option stmt) : stmt :=
  match b with (neg, cs, body) => SIf neg SSkip cs body (mkchain l els) end.
Definition first_branch (m : mem) (l : list (bool * list cond * stmt)) (els : option stmt) : stmt :=
  match find (fun b => holds (fst (fst b)) (snd (fst b)) m) l with
  | Some b => snd b
  | None => match els with Some p => p | None => SSkip end
  end.
Theorem C20_exactly_one_branch b l els m o m' :
  den (ifs b l els) m o m' <-> den (first_branch m (b :: l) els) m o m'.
Proof.
  assert (SK : forall A, seq_rel skip_rel A m o m' <-> A m o m').
  { intros A. unfold seq_rel, skip_rel. split; [intros [[N [E _]]|(x & [_ ->] & H)]; [congruence|exact H]|]. intros H. right. exists m. auto. }
  assert (CH : forall l, den_chain (mkchain l els) m o m' <-> den (first_branch m l els) m o m').
  { clear b l. induction l as [|[[neg cs] body] l IH].
    - unfold first_branch. cbn. destruct els; reflexivity.
    - cbn [mkchain den_chain den]. rewrite SK. unfold first_branch, if_rel. cbn [find fst snd]. destruct (holds neg cs m); [reflexivity|exact IH]. }
  destruct b as [[neg cs] body]. cbn [ifs den]. rewrite SK. unfold first_branch, if_rel. cbn [find fst snd]. destruct (holds neg cs m); [reflexivity|apply CH].
Qed.
Print Assumptions C20_exactly_one_branch.

(* ---------- an example ---------- *)
(* leaves that change one dword *)
Definition set_leaf (a : Z) (md : modifier) (v : Z) : leaf :=
  mkleaf (emit_code 1 (fun T k => [RawTrig [] [SetM a md v] (lbl T (S k))]))
    (fun m m' => forall b, get m' b = get (upd m a (do_mod md (get m a) (u32 v))) b).
Lemma get_upd_same m a b v : idx b = idx a -> get (upd m a v) b = u32 v.
Proof. intros E. unfold get, upd. rewrite E, Z.eqb_refl. reflexivity. Qed.
Lemma plain_small a : 100 < a < 2^30 \/ 30 < a <= 100 -> plain a.
Proof. intros H. unfold plain, special. rewrite u32_small by lia. lia. Qed.
Lemma condM_good L s a cm n : plain a -> ~ priv L s a -> cgood L s (CondM a cm n).
Proof.
  intros Hp Hn m1 m A.
  assert (Q : forall m, cond_ok m (CondM a cm n) /\ cond_type (rd m (c_w3 (CondM a cm n))) <> 0 /\ eval_cond m (CondM a cm n) = do_cmp cm (get m a) (u32 n)).
  { intros u. destruct (conds_one_M u a cm n Hp) as [C1 C2]. cbn [conds_ok eval_conds] in C1, C2.
    destruct (w3_facts cm) as (_ & W2 & _). change (rd u (c_w3 (CondM a cm n))) with (u32 (enc_cmp cm * 2^16 + 15 * 2^24)) in *. rewrite W2 in *.
    cbn [Z.eqb] in C2. rewrite andb_true_r in C2. destruct C1 as [C1|[C1 _]]; [lia|]. split; [exact C1|]. split; [lia|exact C2]. }
  destruct (Q m1) as (Q1 & Q2 & Q3). split; [exact Q1|]. split; [exact Q2|]. rewrite Q3. destruct (Q m) as (_ & _ & ->). rewrite (A a Hn). reflexivity.
Qed.
Lemma set_leaf_inv a md v h s : inv h s -> inv h (lf_emit (set_leaf a md v) s).
Proof. apply inv_code. Qed.
Lemma set_leaf_good w L s a md v : linked w L s -> writable w a -> ~ priv L s a -> lgood w L s (set_leaf a md v).
Proof.
  intros HL [Hp Hw] Hn e s0. apply (impl_code w L s HL). split; [cbn; lia|]. split; [reflexivity|]. intros T k Hpl m m' Hs m1 HA.
  exists (upd m1 a (do_mod md (get m1 a) (u32 v))). split; [|split].
  - replace (k + 1)%nat with (S k) by lia. eapply run_true; [specialize (Hpl 0%nat _ eq_refl); rewrite Nat.add_0_r in Hpl; exact Hpl|reflexivity|apply conds_nil|apply do_cons_M; [exact Hp|exact Hw|apply do_nil]|].
    cbn [rd]. unfold lbl. apply pa_u32.
  - intros b Hb. rewrite Hs. rewrite (HA a Hn). destruct (Z.eq_dec (idx b) (idx a)) as [E|E].
    + rewrite !(get_upd_same _ _ b) by auto. reflexivity.
    + rewrite !get_upd_ne by congruence. apply HA. exact Hb.
  - intros b Hb. apply get_upd_ne. intros E. apply Hn. destruct Hb as [(k0 & l & H & Q)|(d & H & Q)]; [left; exists k0, l|right; exists d]; split; auto; congruence.
Qed.

(* EUDLoopN(3)(1): if (a is 2) { a += 10; continue; } else if (a >= 12) { a += 100; break } else { a += 1; b += 5 } *)
Definition cA := 40. Definition cB := 41.
Definition ex_prog : stmt :=
  SSeq (SLoopN 7 (SSeq (SIf false SSkip [CondM cA Exactly 2] (SSeq (SLeaf (set_leaf cA Add 10)) SContinue)
        (CElif false SSkip [CondM cA AtLeast 12] (SSeq (SLeaf (set_leaf cA Add 100)) SBreak)
         (CElse (SLeaf (set_leaf cA Add 1))))) (SLeaf (set_leaf cB Add 5))) None)
       (SLeaf (set_leaf cB Add 1000)).
Definition ex_code : bs := match comp None ex_prog start with Some s => s | None => start end.
(* a layout: triggers from exT, Db cells at 60, what follows at 200000 *)
Fixpoint goto (fuel : nat) (sets : list (nat * loc)) (l : loc) : Z :=
  match fuel, l with
  | _, P k => exT k
  | O, _ => 200000
  | S n, F f => match find (fun x => (fst x =? f)%nat) sets with Some x => goto n sets (snd x) | None => 200000 end
  end.
Definition ex_lay : lay := mklay exT (fun f => goto 200 (b_sets ex_code) (F f)) (fun d => 60 + Z.of_nat d).
Definition ex_world : world := exworld 0 (map (fun it => it ex_lay) (b_trs ex_code)).
Lemma ex_compiled : comp None ex_prog start = Some ex_code.
Proof. destruct (comp_total ex_prog None start eq_refl) as (s & H). unfold ex_code. rewrite H. reflexivity. Qed.
Opaque ex_code.

Lemma nx_small k : (k < 1000)%nat -> idx (nx ex_lay k) = 100001 + 602 * Z.of_nat k.
Proof. intros H. unfold nx, idx, ex_lay. cbn [L_T]. unfold exT. rewrite Z.mod_small; lia. Qed.
Example ex_linked : linked ex_world ex_lay ex_code.
Proof.
  assert (HB : forallb (fun x => (fst x <? 1000)%nat) (b_init ex_code) = true) by (vm_compute; reflexivity).
  rewrite forallb_forall in HB.
  assert (HB' : forall k l, In (k, l) (b_init ex_code) -> (k < 1000)%nat) by (intros k l H; specialize (HB _ H); cbn [fst] in HB; lia).
  assert (HD : b_nd ex_code = 1%nat) by (vm_compute; reflexivity).
  constructor.
  - assert (H : forallb (fun x => L_F ex_lay (fst x) =? lv ex_lay (snd x)) (b_sets ex_code) = true) by (vm_compute; reflexivity).
    rewrite forallb_forall in H. intros f l Hf. specialize (H _ Hf). cbn [fst snd] in H. lia.
  - intros k it H. apply (exworld_placed 0 (map (fun it => it ex_lay) (b_trs ex_code))).
    + lia.
    + vm_compute; reflexivity.
    + apply (map_nth_error (fun it : item => it ex_lay) k (b_trs ex_code) H).
  - intros k l H. specialize (HB' k l H). split; [|reflexivity]. apply plain_small. unfold nx, ex_lay, exT; cbn [L_T]. lia.
  - intros d Hd. split; [|reflexivity]. apply plain_small. cbn [ex_lay L_D]. lia.
  - intros k k' l l' H H' E. rewrite (nx_small k), (nx_small k') in E by (eapply HB'; eassumption). lia.
  - intros d d' H H' E. lia.
  - intros k l d H Hd. rewrite nx_small by (eapply HB'; eassumption). unfold idx. cbn [ex_lay L_D]. rewrite Z.mod_small; lia.
Qed.

Lemma ex_not_priv a : 30 < a < 60 -> ~ priv ex_lay ex_code a.
Proof.
  assert (HB : forallb (fun x => (fst x <? 1000)%nat) (b_init ex_code) = true) by (vm_compute; reflexivity).
  rewrite forallb_forall in HB. intros H [(k & l & Hk & E)|(d & Hd & E)].
  - specialize (HB _ Hk). cbn [fst] in HB. rewrite nx_small in E by lia. unfold idx in E. rewrite Z.mod_small in E; lia.
  - unfold idx in E. cbn [ex_lay L_D] in E. assert (Q : b_nd ex_code = 1%nat) by (vm_compute; reflexivity). rewrite !Z.mod_small in E; lia.
Qed.
Example ex_good : good ex_world ex_lay ex_code ex_prog.
Proof.
  split; cbn [ex_prog parts parts_chain fst snd app].
  - intros c H. repeat destruct H as [<-|H]; try contradiction; (apply set_leaf_good; [exact ex_linked|split; [apply plain_small; unfold cA, cB; lia|reflexivity]|apply ex_not_priv; unfold cA, cB; lia]).
  - intros c H. repeat destruct H as [<-|H]; try contradiction; (apply condM_good; [apply plain_small; unfold cA, cB; lia|apply ex_not_priv; unfold cA, cB; lia]).
Qed.
(* a = 1 at the start: the loop adds 1, adds 10 and continues, adds 100 and leaves *)
Definition ex_m0 : mem := fun i => if i =? cA then 1 else 0.
Definition ex_m4 : mem := upd (upd (upd (upd (upd ex_m0 cA 2) cB 5) cA 12) cA 112) cB 1005.
Example ex_means : den ex_prog ex_m0 Norm ex_m4.
Proof.
  right. exists (upd (upd (upd (upd ex_m0 cA 2) cB 5) cA 12) cA 112). split; [|split; [reflexivity|intros b; reflexivity]].
  split; [reflexivity|].
  assert (W : Z.to_nat (u32 7) = 7%nat) by (vm_compute; reflexivity). rewrite W. clear W.
  eapply (times_next _ _ _ _ Norm (upd (upd ex_m0 cA 2) cB 5)); [|discriminate|apply tail_norm; split; reflexivity|].
  { right. exists (upd ex_m0 cA 2). split; [|split; [reflexivity|intros b; reflexivity]].
    right. exists ex_m0. split; [split; reflexivity|]. right. exists ex_m0. split; [split; reflexivity|]. split; [reflexivity|intros b; reflexivity]. }
  eapply (times_next _ _ _ _ Cnt (upd (upd (upd ex_m0 cA 2) cB 5) cA 12)); [|discriminate|apply tail_norm; split; reflexivity|].
  { left. split; [discriminate|]. right. exists (upd (upd ex_m0 cA 2) cB 5). split; [split; reflexivity|].
    right. exists (upd (upd (upd ex_m0 cA 2) cB 5) cA 12). split; [split; [reflexivity|intros b; reflexivity]|split; reflexivity]. }
  eapply times_brk. left. split; [discriminate|]. right. exists (upd (upd (upd ex_m0 cA 2) cB 5) cA 12). split; [split; reflexivity|].
  right. exists (upd (upd (upd ex_m0 cA 2) cB 5) cA 12). split; [split; reflexivity|]. right.
  eexists. split; [split; [reflexivity|intros b; reflexivity]|split; reflexivity].
Qed.
(* memory with the next pointers of the code filled in *)
Definition ex_mem (m : mem) : mem := fold_right (fun x m => upd m (nx ex_lay (fst x)) (pa (lv ex_lay (snd x)))) m (b_init ex_code).
Example ex_sim : sim ex_lay ex_code (ex_mem ex_m0) ex_m0.
Proof.
  split.
  - intros a Ha. unfold ex_mem.
    assert (H : forall l, (forall x, In x l -> In x (b_init ex_code)) -> get (fold_right (fun x m => upd m (nx ex_lay (fst x)) (pa (lv ex_lay (snd x)))) ex_m0 l) a = get ex_m0 a).
    { induction l as [|[k z] l IH]; intros Hl; [reflexivity|]. cbn [fold_right fst snd]. rewrite get_upd_ne; [apply IH; intros; apply Hl; right; auto|].
      intros E. apply Ha. left. exists k, z. split; [apply Hl; left; reflexivity|exact (eq_sym E)]. }
    apply H. auto.
  - assert (H : forallb (fun x => get (ex_mem ex_m0) (nx ex_lay (fst x)) =? pa (lv ex_lay (snd x))) (b_init ex_code) = true) by (vm_compute; reflexivity).
    rewrite forallb_forall in H. intros k l Hk. specialize (H _ Hk). cbn [fst snd] in H. lia.
Qed.
Example ex_runs : exists m1, runs ex_world (pa (exT 0), ex_mem ex_m0) (pa 200000, m1) /\ get m1 cA = 112 /\ get m1 cB = 1005.
Proof.
  destruct (C20_structured ex_prog ex_code ex_world ex_lay 200000) with (m := ex_m0) (m' := ex_m4) (m1 := ex_mem ex_m0) as (m1 & R1 & A & _).
  - exact ex_compiled.
  - intros c Hc. cbn [ex_prog parts parts_chain fst snd app] in Hc. repeat destruct Hc as [<-|Hc]; try contradiction; intros h s; apply set_leaf_inv.
  - exact ex_linked.
  - assert (H : forallb (fun f => L_F ex_lay f =? 200000) (b_pend ex_code) = true) by (vm_compute; reflexivity).
    rewrite forallb_forall in H. intros f Hf. specialize (H _ Hf). lia.
  - exact ex_good.
  - exact ex_means.
  - exact ex_sim.
  - exists m1. split; [exact R1|]. rewrite !A by (apply ex_not_priv; unfold cA, cB; lia). split; reflexivity.
Qed.
