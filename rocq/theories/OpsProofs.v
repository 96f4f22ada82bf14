(* Correctness of assignment and additive operators (OpsModel.v). *)
From Coq Require Import ZArith Lia Bool List.
From Verif Require Import Lib Word Machine MachineProofs VarModel VarSpec VarProofs SeqProofs WordX OpsModel OpsSpec OpsBase.
Import ListNotations.
Open Scope Z_scope.

Section W.
Variable w : world.
Hypothesis Hw : world_ok w.
Notation vars := (W_vars w).
Notation val v := (vc v FVal).
Variable same same_u : dst -> dst -> bool.
Hypothesis Hsame : forall a b, same a b = true -> u32 (dst_epd a) = u32 (dst_epd b).
Variable T : nat -> Z.

(* run a SeqCompute whose modifiers are all given *)
Lemma seq_plain k l rl m :
  good_list w l -> (forall v, In v (srcs_of l) -> ordinary m v) ->
  placed w T k (SeqCompute same same_u T k l) ->
  resolve (fun _ => None) l = Some rl ->
  exists m', runs w (lbl T k, m) (lbl T (k + length (SeqCompute same same_u T k l)), m') /\
    (forall b, ~ scratch (srcs_of l) b -> get m' b = get (assign_all m rl) b) /\ keeps w m m'.
Proof.
  intros Hg Ho Hp Hr.
  destruct (seq_run w Hw same same_u T k l (fun _ => None) rl m) as (m' & A & B & C & _); auto.
  - noknown.
  - exists m'. auto.
Qed.

(* one destination, the final value computed by assign_all *)
Lemma seq_one k l rl m a vs cells :
  good_list w l -> (forall v, In v (srcs_of l) -> ordinary m v) ->
  placed w T k (SeqCompute same same_u T k l) ->
  resolve (fun _ => None) l = Some rl ->
  incl (srcs_of l) vs -> ~ scratch (srcs_of l) a ->
  (forall d md s, In (d, md, s) l -> dst_epd d = a \/ In (dst_epd d) cells) ->
  forall x, get (assign_all m rl) a = x ->
  does w T k (SeqCompute same same_u T k l) (tmp vs cells) m [(a, x)].
Proof.
  intros Hg Ho Hp Hr Hi Hns Hd x Hx.
  destruct (seq_plain k l rl m Hg Ho Hp Hr) as (m' & A & B & C).
  exists m'. split; [exact A|]. split; [|exact C]. split.
  - intros a' x' [H|[]]. apply pair_equal_spec in H; destruct H as [<- <-]. rewrite B by exact Hns. exact Hx.
  - intros b Hb Hl. rewrite B.
    + apply assign_all_other. intros d md s Hin E. destruct (resolve_dsts l _ _ Hr d md s Hin) as (md' & Hin').
      destruct (Hd _ _ _ Hin') as [Q|Q].
      * apply (Hl a x (or_introl eq_refl)). congruence.
      * apply Hb. right. exists (dst_epd d). split; [exact Q|auto].
    + intros Hs. apply Hb. left. eapply scratch_incl; [|exact Hs]. auto.
Qed.

Lemma valcell_val v : In v vars -> valcell w (val v).
Proof. intros Hv. split; [apply (val_writable w Hw); exact Hv|]. intros u f Hu Hf. apply (vsep w Hw); auto. Qed.

(* one raw trigger that changes one cell *)
Lemma cell_does k cs acts a x m m' :
  valcell w a -> placed w T k (Raw1 T k cs acts) -> conds_are m cs true ->
  acts_do (W_prot w) m acts m' -> get m' a = x ->
  (forall b, idx a <> idx b -> get m' b = get m b) ->
  does w T k (Raw1 T k cs acts) (tmp [] []) m [(a, x)].
Proof.
  intros [Ha Hs] Hp Hc Hd Hx Ho. exists m'. split; [apply raw_run; auto|]. split.
  - split.
    + intros a' x' [H|[]]. apply pair_equal_spec in H; destruct H as [<- <-]. exact Hx.
    + intros b Hb Hl. apply Ho. apply (Hl a x). left. reflexivity.
  - intros v Hv [O1 O2]. split; rewrite Ho; auto; apply Hs; auto; discriminate.
Qed.

Lemma nsc vs v : incl vs vars -> In v vars -> ~ scratch vs (val v).
Proof. intros. apply (not_scratch_val w Hw); auto. Qed.

(* ---------- assignment, addition ---------- *)
Lemma v_assign_does k self other m :
  In self vars -> ord_src w m other -> placed w T k (v_assign same same_u T k self other) ->
  does w T k (v_assign same same_u T k self other) (tmp (svar other) []) m [(val self, sval m other)].
Proof.
  intros Hs Ho Hp. unfold v_assign in *.
  destruct other as [c|o]; cbn [ord_src svar sval] in *.
  - eapply seq_one; [good|ords|exact Hp|reflexivity|inclv|apply nsc; [inclv|exact Hs]| |].
    + intros d md s [H|[]]. injection H as <- <- <-. left. reflexivity.
    + asg. cbn [do_mod]. apply u32_idem.
  - destruct Ho as [Hov [Ho1 Ho2]].
    eapply seq_one; [good|intros v [<-|[]]; split; auto|exact Hp|reflexivity|inclv|apply nsc; [inclv|exact Hs]| |].
    + intros d md s [H|[]]. injection H as <- <- <-. left. reflexivity.
    + asg. cbn [do_mod]. apply u32_get.
Qed.

Lemma v_iadd_does k self other m :
  In self vars -> ord_src w m other -> placed w T k (v_iadd same same_u T k self other) ->
  does w T k (v_iadd same same_u T k self other) (tmp (svar other) []) m
    [(val self, u32 (get m (val self) + sval m other))].
Proof.
  intros Hs Ho Hp. unfold v_iadd in *.
  destruct other as [c|o]; cbn [ord_src svar sval] in *.
  - eapply seq_one; [good|ords|exact Hp|reflexivity|inclv|apply nsc; [inclv|exact Hs]| |].
    + intros d md s [H|[]]. injection H as <- <- <-. left. reflexivity.
    + asg. cbn [do_mod]. apply u32_idem.
  - destruct Ho as [Hov [Ho1 Ho2]].
    eapply seq_one; [good|intros v [<-|[]]; split; auto|exact Hp|reflexivity|inclv|apply nsc; [inclv|exact Hs]| |].
    + intros d md s [H|[]]. injection H as <- <- <-. left. reflexivity.
    + asg. cbn [do_mod]. apply u32_idem.
Qed.

(* ---------- light variables: value cell a, constant operand ---------- *)
Section Light.
Variable a : Z.
Hypothesis Ha : valcell w a.
Let Hpl : plain a := proj1 (proj1 Ha).
Let Hpr : W_prot w (idx a) = false := proj2 (proj1 Ha).

Lemma lv_assign_does k c m : placed w T k (lv_assign T k a c) ->
  does w T k (lv_assign T k a c) (tmp [] []) m [(a, u32 c)].
Proof.
  intros Hp. eapply cell_does; [exact Ha|exact Hp|apply conds_nil| | |].
  - unfold SetNumber. apply do_cons_M; auto. apply do_nil.
  - cell. apply u32_idem.
  - intros b Hb. cell. reflexivity.
Qed.
Lemma lv_iadd_does k c m : placed w T k (lv_iadd T k a c) ->
  does w T k (lv_iadd T k a c) (tmp [] []) m [(a, u32 (get m a + c))].
Proof.
  intros Hp. eapply cell_does; [exact Ha|exact Hp|apply conds_nil| | |].
  - unfold AddNumber. apply do_cons_M; auto. apply do_nil.
  - cell. cbn [do_mod]. u32norm. reflexivity.
  - intros b Hb. cell. reflexivity.
Qed.
(* documented behaviour of trigger subtraction: stops at 0 *)
Lemma lv_isub_does k c m : placed w T k (lv_isub T k a c) ->
  does w T k (lv_isub T k a c) (tmp [] []) m [(a, Z.max 0 (get m a - u32 c))].
Proof.
  intros Hp. eapply cell_does; [exact Ha|exact Hp|apply conds_nil| | |].
  - unfold SubtractNumber. apply do_cons_M; auto. apply do_nil.
  - cell. cbn [do_mod]. apply u32_small. pose proof (get_range m a). pose proof (u32_range c). lia.
  - intros b Hb. cell. reflexivity.
Qed.
Lemma lv_ior_does k c m : placed w T k (lv_ior T k a c) ->
  does w T k (lv_ior T k a c) (tmp [] []) m [(a, Z.lor (get m a) (u32 c))].
Proof.
  intros Hp. pose proof (get_range m a). pose proof (u32_range c).
  eapply cell_does; [exact Ha|exact Hp|apply conds_nil| | |].
  - unfold SetNumberX. apply do_cons_MX; auto. apply do_nil.
  - cell. cbn [do_modx]. change (u32 0xFFFFFFFF) with 0xFFFFFFFF. rewrite wset_or by assumption.
    apply u32_small. apply lor_range; lia.
  - intros b Hb. cell. reflexivity.
Qed.
Lemma lv_iand_does k c m : placed w T k (lv_iand T k a c) ->
  does w T k (lv_iand T k a c) (tmp [] []) m [(a, Z.land (get m a) (u32 c))].
Proof.
  intros Hp. pose proof (get_range m a). pose proof (u32_range c).
  eapply cell_does; [exact Ha|exact Hp|apply conds_nil| | |].
  - unfold SetNumberX. apply do_cons_MX; auto. apply do_nil.
  - cell. cbn [do_modx]. rewrite u32_lnot. change (u32 0) with 0. rewrite wset_and by assumption.
    apply u32_small. apply land_range; lia.
  - intros b Hb. cell. reflexivity.
Qed.
Lemma xor_acts_do c m : 0 <= c < 2^32 -> exists m', acts_do (W_prot w) m (ixor_acts a c) m' /\
  get m' a = Z.lxor (get m a) c /\ (forall b, idx a <> idx b -> get m' b = get m b).
Proof.
  intros Hc. pose proof (get_range m a).
  eexists. split; [|split].
  - unfold ixor_acts, AddNumberX. apply do_cons_MX; auto. apply do_cons_MX; auto. apply do_nil.
  - cell. rewrite !(u32_small c) by lia. cbn [do_modx]. change (u32 0x55555555) with k5. change (u32 0xAAAAAAAA) with kA.
    rewrite (u32_small (wadd k5 (get m a) c)).
    + rewrite xor_two_adds by lia. apply u32_small, lxor_range; lia.
    + change (wadd k5 (get m a) c) with (do_modx Add k5 (get m a) c). apply do_modx_range; try lia. unfold k5; lia.
  - intros b Hb. cell. reflexivity.
Qed.
Lemma ixor_acts_u32 c : acts_do (W_prot w) = acts_do (W_prot w) -> forall m m',
  acts_do (W_prot w) m (ixor_acts a (u32 c)) m' -> acts_do (W_prot w) m (ixor_acts a c) m'.
Proof.
  intros _ m m' H. unfold ixor_acts, AddNumberX in *. destruct H as [H1 H2].
  split.
  - revert H1. cbn [acts_ok]. unfold SetMX, SetDX, act_ok, exec_act. cbn [a_w6 a_w7 a_dest a_val a_mask rd].
    rewrite !u32_idem. auto.
  - rewrite <- H2. cbn [exec_acts]. unfold SetMX, SetDX, exec_act. cbn [a_w6 a_w7 a_dest a_val a_mask rd].
    rewrite !u32_idem. reflexivity.
Qed.
Lemma lv_ixor_does k c m : placed w T k (lv_ixor T k a c) ->
  does w T k (lv_ixor T k a c) (tmp [] []) m [(a, Z.lxor (get m a) (u32 c))].
Proof.
  intros Hp. destruct (xor_acts_do (u32 c) m (u32_range c)) as (m' & A & B & C).
  eapply cell_does; [exact Ha|exact Hp|apply conds_nil|apply ixor_acts_u32; [reflexivity|exact A]|exact B|exact C].
Qed.
Lemma lv_iinvert_does k m : placed w T k (lv_iinvert T k a) ->
  does w T k (lv_iinvert T k a) (tmp [] []) m [(a, 0xFFFFFFFF - get m a)].
Proof.
  intros Hp. rewrite <- xor_ones by apply get_range. apply (lv_ixor_does k 0xFFFFFFFF m Hp).
Qed.
Lemma neg_acts_do c m : exists m', acts_do (W_prot w) m (ixor_acts a 0xFFFFFFFF ++ [AddNumber a c]) m' /\
  get m' a = u32 (c - 1 - get m a) /\ (forall b, idx a <> idx b -> get m' b = get m b).
Proof.
  destruct (xor_acts_do 0xFFFFFFFF m ltac:(lia)) as (m1 & A & B & C).
  eexists. split; [|split].
  - eapply do_app; [|exact A|].
    + intros x [<-|[<-|[]]] ?; apply type_SetMX.
    + unfold AddNumber. apply do_cons_M; auto. apply do_nil.
  - cell. rewrite B. cbn [do_mod]. u32norm. rewrite xor_ones by apply get_range.
    apply (u32_eq _ _ 1). lia.
  - intros b Hb. cell. auto.
Qed.
Lemma lv_ineg_does k m : placed w T k (lv_ineg T k a) ->
  does w T k (lv_ineg T k a) (tmp [] []) m [(a, u32 (- get m a))].
Proof.
  intros Hp. destruct (neg_acts_do 1 m) as (m' & A & B & C).
  eapply cell_does; [exact Ha|exact Hp|apply conds_nil|exact A| |exact C].
  rewrite B. f_equal; lia.
Qed.
(* absolute value of the two's complement reading *)
Lemma lv_iabs_does k m : placed w T k (lv_iabs T k a) ->
  does w T k (lv_iabs T k a) (tmp [] []) m [(a, if get m a <? 2^31 then get m a else 2^32 - get m a)].
Proof.
  intros Hp. pose proof (get_range m a) as Hr.
  pose proof (conds_one_M m a AtLeast 0x80000000 Hpl) as Hc. cbn [do_cmp] in Hc. change (u32 0x80000000) with (2^31) in Hc.
  destruct (Z.ltb_spec (get m a) (2^31)) as [Hlt|Hge].
  - rewrite (proj2 (Z.leb_gt _ _)) in Hc by lia.
    exists m. split; [apply raw_skip; [exact Hp|exact Hc]|]. split; [|apply keeps_refl].
    split; [|auto]. intros a' x' [H|[]]. apply pair_equal_spec in H; destruct H as [<- <-]. reflexivity.
  - rewrite (proj2 (Z.leb_le _ _)) in Hc by lia.
    destruct (neg_acts_do 1 m) as (m' & A & B & C).
    eapply cell_does; [exact Ha|exact Hp|exact Hc|exact A| |exact C].
    rewrite B. rewrite (u32_eq _ (2^32 - get m a) (-1)) by lia. apply u32_small. lia.
Qed.
End Light.

(* ---------- additive operators ---------- *)
Variable addor : Z.
(* the shared helper variable: its modifier is Add, and stays so *)
Definition addor_ok (m : mem) : Prop := ordinary m addor /\ get m (vc addor FMod) = w6 Add.

Lemma v_isub_const k self c : v_isub same same_u addor T k self (SConst c) = v_iadd same same_u T k self (SConst (- c)).
Proof. reflexivity. Qed.
Lemma v_isub_var k self o : v_isub same same_u addor T k self (SVar o) =
  SeqCompute same same_u T k [(DVar self, Some Add, SConst 1); (DVar addor, Some SetTo, SConst 4294967295);
               (DVar addor, Some Subtract, SVar o); (DVar self, None, SVar addor)].
Proof. reflexivity. Qed.

Lemma v_isub_does k self other m :
  In self vars -> ord_src w m other -> In addor vars -> addor_ok m ->
  ~ In self (addor :: svar other) -> ~ In addor (svar other) ->
  placed w T k (v_isub same same_u addor T k self other) ->
  exists m', runs w (lbl T k, m) (lbl T (k + length (v_isub same same_u addor T k self other)), m') /\
    changes (tmp (svar other) [val addor; vc addor FNext; vc addor FDest]) m m'
      [(val self, u32 (get m (val self) - sval m other))] /\ keeps w m m' /\ addor_ok m'.
Proof.
  intros Hs Ho Hav [Hao Ham] Hsn Han Hp.
  destruct other as [c|o]; [rewrite v_isub_const in *|rewrite v_isub_var in *]; cbn [ord_src svar sval] in *.
  - destruct (v_iadd_does k self (SConst (- c)) m Hs I Hp) as (m' & A & [B1 B2] & C).
    cbn [svar sval] in *.
    exists m'. split; [exact A|]. split; [|split; [exact C|]].
    + split.
      * intros a x [H|[]]. apply pair_equal_spec in H; destruct H as [<- <-].
        rewrite (B1 (val self) _ (or_introl eq_refl)). u32norm. f_equal.
      * intros b Hb Hl. apply B2.
        -- intros [(v & f & [] & _)|(? & [] & _)].
        -- intros a x [H|[]]. apply pair_equal_spec in H; destruct H as [<- <-]. eapply Hl. left. reflexivity.
    + split; [apply C; auto|]. rewrite B2; auto.
      * intros [(v & f & [] & _)|(? & [] & _)].
      * intros a x [H|[]]. apply pair_equal_spec in H; destruct H as [<- <-]. sep.
  - destruct Ho as [Hov Hoo]. pose proof (proj1 Hoo) as Hok. pose proof (proj1 Hao) as Hak.
    assert (N1 : self <> addor) by (intros E; apply Hsn; left; auto).
    assert (N2 : self <> o) by (intros E; apply Hsn; right; left; auto).
    assert (N3 : addor <> o) by (intros E; apply Han; left; auto).
    set (l := [(DVar self, Some Add, SConst 1); (DVar addor, Some SetTo, SConst 4294967295);
               (DVar addor, Some Subtract, SVar o); (DVar self, None, SVar addor)]) in *.
    destruct (seq_run w Hw same same_u T k l (fun u => if u =? addor then Some Add else None)
      [(DVar self, Add, SConst 1); (DVar addor, SetTo, SConst 4294967295);
       (DVar addor, Subtract, SVar o); (DVar self, Add, SVar addor)] m) as (m' & A & B & C & D); auto.
    + unfold l; good.
    + unfold l; ords.
    + cbn [l resolve]. destruct (Z.eqb_spec addor o); [contradiction|]. rewrite Z.eqb_refl. reflexivity.
    + intros v md Hv H. destruct (Z.eqb_spec v addor) as [->|]; [|discriminate]. injection H as <-. exact Ham.
    + cbn [l srcs_of flat_map snd app] in B.
      assert (Hi : incl [o; addor] vars) by (intros x [<-|[<-|[]]]; auto).
      assert (Hm : get m' (vc addor FMod) = w6 Add).
      { apply D.
        - right. left. reflexivity.
        - cbn [cur_after l]. destruct (Z.eqb_spec addor o); [contradiction|]. rewrite Z.eqb_refl. reflexivity. }
      exists m'. split; [exact A|]. split; [|split; [exact C|split; [apply C; auto|exact Hm]]].
      split.
      * intros a x [H|[]]. apply pair_equal_spec in H; destruct H as [<- <-]. rewrite B by (apply nsc; auto). asg. cbn [do_mod].
        pose proof (get_range m (val o)). rewrite !(u32_small 4294967295) by lia.
        rewrite Z.max_r by lia. u32norm. change (u32 1) with 1. apply (u32_eq _ _ 1). lia.
      * intros b Hb Hl. destruct (Z.eq_dec (idx b) (idx (vc addor FMod))) as [E|E].
        -- rewrite !(get_cong _ b _ E). rewrite Hm. symmetry. exact Ham.
        -- rewrite B.
           ++ apply assign_all_other. intros d md s Hin. cbn [In] in Hin.
              assert (Q1 : idx (val self) <> idx b) by (apply (Hl (val self) _ (or_introl eq_refl))).
              assert (Q2 : idx (val addor) <> idx b).
              { intros E2. apply Hb. right. exists (val addor). split; [left; reflexivity|auto]. }
              repeat (destruct Hin as [Hin|Hin]; [injection Hin as <- <- <-; assumption|]). destruct Hin.
           ++ intros (v & f & Hv & Hf & E2). apply Hb. cbn [In] in Hv. destruct Hv as [<-|[<-|[]]].
              ** left. exists o, f. cbn. auto.
              ** right. destruct Hf as [->|[->| ->]]; [exists (vc addor FNext)|exists (vc addor FDest)|contradiction]; cbn; auto.
Qed.
End W.
