(* Final theorems: loops over players (C71), cells of the local player (C72). *)
From Coq Require Import ZArith Lia String List Bool Sorted ZifyBool ZifyNat.
From Verif Require Import Word Machine MachineProofs PlayerModel.
Import ListNotations.
Open Scope Z_scope.

(* ================= specification ================= *)
Definition dw (m : mem) (a : Z) : Z := get m ((a - 0x58A364) / 4).
(* the list of triggers of a player is empty when its last trigger is the complement of the
   address of its own first node *)
Definition empty_list (m : mem) (p : Z) : bool := dw m (0x51A280 + 12 * p + 8) =? 2^32 - 1 - (0x51A280 + 12 * p + 4).
(* the body runs for each of the players that still have triggers when it is their turn *)
Fixpoint visit (ps : list Z) (body : pbody) (m : mem) : list Z * mem * bool :=
  match ps with
  | [] => ([], m, false)
  | p :: r =>
      if empty_list m p then visit r body m
      else let (m1, brk) := body p m in
           if brk then ([p], m1, true) else let '(t, m2, b) := visit r body m1 in (p :: t, m2, b)
  end.
Definition wanted (ptype : option string) (fo : option Z) (ra : option string) (i : pinfo) : Prop :=
  (forall s, ptype = Some s -> s <> ""%string -> typestr (type i) = s) /\
  (forall f, fo = Some f -> force i = (if f <? 18 then f else f - 18)) /\
  (forall s, ra = Some s -> s <> ""%string -> racestr (race i) = s).
Definition valid_force (f : Z) : Prop := 0 <= f <= 3 \/ 18 <= f <= 21.

(* ================= proofs ================= *)
Lemma playerexist_ok m p : 0 <= p < 8 -> (playerexist m p =? 0) = empty_list m p.
Proof.
  intros H. unfold playerexist, empty_list, dw, pepd. replace ((0 <=? p) && (p <? 8)) with true by lia.
  replace (u32 (Z.lnot (0x51A280 + p * 12 + 4))) with (2^32 - 1 - (0x51A280 + 12 * p + 4)).
  - rewrite (Z.mul_comm p 12). match goal with |- context [if ?b then 0 else 1] => destruct b end; reflexivity.
  - unfold Z.lnot, u32. apply (Z.mod_unique_pos _ _ (-1)); lia.
Qed.
Lemma mem_z_iff x l : mem_z x l = true <-> In x l.
Proof.
  unfold mem_z. rewrite existsb_exists. split; [intros (y & H & E); apply Z.eqb_eq in E; subst; exact H|intros H; exists x; split; [exact H|apply Z.eqb_refl]].
Qed.
Lemma lmin_le l x : In x l -> lmin l <= x.
Proof. induction l as [|y l IH]; [intros []|]. cbn [lmin fold_right]. fold (lmin l). intros [->|H]; [|specialize (IH H)]; lia. Qed.
Lemma lmax_ge l x : In x l -> x <= lmax l.
Proof. induction l as [|y l IH]; [intros []|]. cbn [lmax fold_right]. fold (lmax l). intros [->|H]; [|specialize (IH H)]; lia. Qed.
Lemma lmax_in l : (forall x, In x l -> 0 <= x) -> l <> [] -> In (lmax l) l.
Proof.
  induction l as [|y l IH]; [congruence|]. intros H _. cbn [lmax fold_right]. fold (lmax l). pose proof (H y (or_introl eq_refl)).
  destruct l as [|z l]; [left; cbn [lmax fold_right]; lia|].
  specialize (IH (fun x I => H x (or_intror I)) ltac:(congruence)). destruct (Z.max_spec y (lmax (z :: l))) as [[_ ->]|[_ ->]]; [right; exact IH|left; reflexivity].
Qed.
Lemma lmin_in l : (forall x, In x l -> x < 8) -> l <> [] -> In (lmin l) l.
Proof.
  induction l as [|y l IH]; [congruence|]. intros H _. cbn [lmin fold_right]. fold (lmin l). pose proof (H y (or_introl eq_refl)).
  destruct l as [|z l]; [left; cbn [lmin fold_right]; lia|].
  specialize (IH (fun x I => H x (or_intror I)) ltac:(congruence)). destruct (Z.min_spec y (lmin (z :: l))) as [[_ ->]|[_ ->]]; [left; reflexivity|right; exact IH].
Qed.
Lemma ge_step l v : StronglySorted Z.lt l ->
  filter (fun p => v <=? p) l = if mem_z v l then v :: filter (fun p => v + 1 <=? p) l else filter (fun p => v + 1 <=? p) l.
Proof.
  induction 1 as [|y l HS IH HF]; [reflexivity|]. cbn [filter]. change (mem_z v (y :: l)) with ((v =? y) || mem_z v l).
  destruct (Z.eqb_spec v y) as [->|N]; cbn [orb].
  - replace (y <=? y) with true by lia. replace (y + 1 <=? y) with false by lia. f_equal. rewrite IH.
    destruct (mem_z y l) eqn:E; [|reflexivity]. apply mem_z_iff in E. rewrite Forall_forall in HF. specialize (HF y E). lia.
  - rewrite IH. destruct (mem_z v l) eqn:E.
    + apply mem_z_iff in E. rewrite Forall_forall in HF. specialize (HF v E). replace (v <=? y) with false by lia. replace (v + 1 <=? y) with false by lia. reflexivity.
    + destruct (Z.leb_spec v y); [replace (v + 1 <=? y) with true by lia|replace (v + 1 <=? y) with false by lia]; reflexivity.
Qed.
Lemma filter_none (f : Z -> bool) l : (forall x, In x l -> f x = false) -> filter f l = [].
Proof. induction l as [|y l IH]; intros H; [reflexivity|]. cbn [filter]. rewrite (H y (or_introl eq_refl)). apply IH. intros x I. apply H. right. exact I. Qed.
Lemma filter_all (f : Z -> bool) l : (forall x, In x l -> f x = true) -> filter f l = l.
Proof. induction l as [|y l IH]; intros H; [reflexivity|]. cbn [filter]. rewrite (H y (or_introl eq_refl)). f_equal. apply IH. intros x I. apply H. right. exact I. Qed.
Lemma player_while_ok l body : StronglySorted Z.lt l -> (forall x, In x l -> 0 <= x < 8) -> l <> [] ->
  forall n v m, lmin l <= v -> lmax l + 1 - v < Z.of_nat n -> v <= lmax l + 1 ->
  player_while n l (lmin l) (lmax l) body v m = Some (visit (filter (fun p => v <=? p) l) body m).
Proof.
  intros HS HR HN. assert (M1 : In (lmax l) l) by (apply lmax_in; [intros x I; apply HR, I|exact HN]).
  assert (M0 : 0 <= lmin l) by (apply HR, lmin_in; [intros x I; apply HR, I|exact HN]).
  pose proof (HR _ M1) as M2.
  induction n as [|n IH]; intros v m H0 H1 H2; [lia|]. cbn [player_while].
  destruct (Z.leb_spec v (lmax l)) as [C|C].
  - rewrite (ge_step l v HS). rewrite (u32_small (v + 1)) by lia.
    destruct (mem_z v l) eqn:E.
    + rewrite andb_false_r. cbn [visit]. rewrite playerexist_ok by lia. destruct (empty_list m v); [apply IH; lia|].
      destruct (body v m) as [m1 brk]. destruct brk; [reflexivity|]. rewrite IH by lia. destruct (visit _ body m1) as [[t m2] b]. reflexivity.
    + assert (v <> lmax l) by (intros ->; apply mem_z_iff in M1; congruence).
      replace ((lmin l <=? v) && (v <? lmax l) && negb false) with true by lia. apply IH; lia.
  - rewrite filter_none; [reflexivity|]. intros x I. apply lmax_ge in I. lia.
Qed.
Lemma sorted_filter f l : StronglySorted Z.lt l -> StronglySorted Z.lt (filter f l).
Proof.
  induction 1 as [|y l HS IH HF]; [constructor|]. cbn [filter]. destruct (f y); [|exact IH]. constructor; [exact IH|].
  rewrite Forall_forall in *. intros x I. apply filter_In in I as [I _]. apply HF, I.
Qed.
Lemma sorted8 : StronglySorted Z.lt players8.
Proof. unfold players8. repeat (constructor; [|repeat (constructor; [lia|]); constructor]). constructor. Qed.
Lemma in8 p : In p players8 <-> 0 <= p < 8.
Proof. cbn [players8 In]. lia. Qed.
Lemma str_ok x s : (not_str x || str_is x s = true) <-> (forall t, x = Some t -> t <> ""%string -> s = t).
Proof.
  destruct x as [t|]; cbn [not_str str_is]; [|split; [intros _ t E; discriminate|reflexivity]].
  destruct (String.eqb_spec t "") as [->|N]; cbn [orb].
  - split; [intros _ t E K; injection E as <-; congruence|reflexivity].
  - destruct (String.eqb_spec s t) as [->|K].
    + split; [intros _ u E _; injection E as <-; reflexivity|reflexivity].
    + split; [discriminate|]. intros H. exfalso. apply K. apply (H t eq_refl N).
Qed.
Lemma meets_ok ptype fo ra i : (forall f, fo = Some f -> valid_force f /\ f <> 0) ->
  exists b, meets ptype fo ra i = Some b /\ (b = true <-> wanted ptype fo ra i).
Proof.
  intros HF. unfold meets, wanted. destruct (not_str ptype || str_is ptype (typestr (type i))) eqn:T; cbn [negb].
  2:{ exists false. split; [reflexivity|]. split; [discriminate|]. intros (H & _). apply str_ok in H. congruence. }
  assert (T' := proj1 (str_ok _ _) T).
  destruct fo as [f|]; cbn [not_int].
  - destruct (HF f eq_refl) as [V N]. replace (f =? 0) with false by lia. unfold encode_force.
    destruct (Z.ltb_spec f 18).
    + unfold valid_force in V. replace ((18 <=? f) && (f <=? 21)) with false by lia. replace ((0 <=? f) && (f <=? 3)) with true by lia.
      destruct (Z.eqb_spec (force i) f) as [E|E].
      * exists (not_str ra || str_is ra (racestr (race i))). split; [reflexivity|]. rewrite str_ok. split; [|tauto]. intros R. split; [exact T'|]. split; [|exact R].
        intros g Eg. injection Eg as <-. replace (f <? 18) with true by lia. exact E.
      * exists false. split; [reflexivity|]. split; [discriminate|]. intros (_ & H1 & _). specialize (H1 f eq_refl). replace (f <? 18) with true in H1 by lia. congruence.
    + unfold valid_force in V. replace ((18 <=? f) && (f <=? 21)) with true by lia. replace ((0 <=? f - 18) && (f - 18 <=? 3)) with true by lia.
      destruct (Z.eqb_spec (force i) (f - 18)) as [E|E].
      * exists (not_str ra || str_is ra (racestr (race i))). split; [reflexivity|]. rewrite str_ok. split; [|tauto]. intros R. split; [exact T'|]. split; [|exact R].
        intros g Eg. injection Eg as <-. replace (f <? 18) with false by lia. exact E.
      * exists false. split; [reflexivity|]. split; [discriminate|]. intros (_ & H1 & _). specialize (H1 f eq_refl). replace (f <? 18) with false in H1 by lia. congruence.
  - exists (not_str ra || str_is ra (racestr (race i))). split; [reflexivity|]. rewrite str_ok. split; [|tauto]. intros R. split; [exact T'|]. split; [|exact R]. discriminate.
Qed.
Lemma collect_ok ptype fo ra info : (forall f, fo = Some f -> valid_force f /\ f <> 0) ->
  forall ps, exists l f, collect ps ptype fo ra info = Some l /\ l = filter f ps /\ forall p, f p = true <-> wanted ptype fo ra (info p).
Proof.
  intros HF ps.
  pose (f := fun p => match meets ptype fo ra (info p) with Some b => b | None => false end).
  assert (F : forall p, f p = true <-> wanted ptype fo ra (info p)).
  { intros p. unfold f. destruct (meets_ok ptype fo ra (info p) HF) as (b & -> & E). exact E. }
  exists (filter f ps), f. split; [|split; [reflexivity|exact F]]. clear F.
  induction ps as [|p ps IH]; [reflexivity|]. cbn [collect filter]. rewrite IH. destruct (meets_ok ptype fo ra (info p) HF) as (b & E & _).
  assert (FP : f p = b) by (unfold f; rewrite E; reflexivity). rewrite E, FP. reflexivity.
Qed.

(* ================= C71 ================= *)
Theorem C71_loop_player : forall ptype fo ra info body m n, (9 < n)%nat ->
  (forall f, fo = Some f -> valid_force f /\ f <> 0) ->
  ((exists p, 0 <= p < 8 /\ wanted ptype fo ra (info p)) ->
   exists l, StronglySorted Z.lt l /\ (forall p, In p l <-> 0 <= p < 8 /\ wanted ptype fo ra (info p)) /\
     EUDLoopPlayer n ptype fo ra info body m = Some (Some (visit l body m))) /\
  ((forall p, 0 <= p < 8 -> ~ wanted ptype fo ra (info p)) -> EUDLoopPlayer n ptype fo ra info body m = None).
Proof.
  intros ptype fo ra info body m n Hn HF. destruct (collect_ok ptype fo ra info HF players8) as (l & f & C & L & F). unfold EUDLoopPlayer. rewrite C.
  assert (I : forall p, In p l <-> 0 <= p < 8 /\ wanted ptype fo ra (info p)).
  { intros p. rewrite L, filter_In, in8, F. tauto. }
  split.
  - intros (p & H1 & H2). exists l. split; [rewrite L; apply sorted_filter, sorted8|]. split; [exact I|].
    assert (N : l <> []) by (intros E; rewrite E in I; apply (proj2 (I p)); tauto).
    assert (R : forall x, In x l -> 0 <= x < 8) by (intros x X; apply I in X; tauto).
    pose proof (R _ (lmax_in l (fun x X => proj1 (R x X)) N)). pose proof (R _ (lmin_in l (fun x X => proj2 (R x X)) N)).
    pose proof (lmin_le l _ (lmax_in l (fun x X => proj1 (R x X)) N)).
    destruct l as [|z l']; [congruence|]. set (l := z :: l') in *. rewrite player_while_ok; [|rewrite L; apply sorted_filter, sorted8|exact R|exact N|lia|lia|lia].
    rewrite filter_all; [reflexivity|]. intros x X. apply lmin_le in X. lia.
  - intros H. destruct l as [|z l']; [reflexivity|]. exfalso. destruct (proj1 (I z) (or_introl eq_refl)) as [Z1 Z2]. exact (H z Z1 Z2).
Qed.
(* force 0 is not looked at *)
Theorem C71_force_0 : forall n ptype ra info body m, EUDLoopPlayer n ptype (Some 0) ra info body m = EUDLoopPlayer n ptype None ra info body m.
Proof.
  intros. unfold EUDLoopPlayer. replace (collect players8 ptype (Some 0) ra info) with (collect players8 ptype None ra info); [reflexivity|].
  induction players8 as [|p ps IH]; [reflexivity|]. cbn [collect]. rewrite IH. reflexivity.
Qed.
Theorem C71_force_0_refuted : exists ptype info body m t m' b,
  EUDLoopPlayer 10 ptype (Some 0) None info body m = Some (Some (t, m', b)) /\ encode_force 0 = Some 0 /\
  exists p, In p t /\ ~ wanted ptype (Some 0) None (info p).
Proof.
  exists (Some "Human"%string), (fun p => mkpinfo (if p =? 0 then 0 else 1) 0 6), (fun _ m => (m, false)), (fun _ => 0), players8, (fun _ => 0), false.
  split; [vm_compute; reflexivity|]. split; [reflexivity|]. exists 1. split; [right; left; reflexivity|]. intros (_ & H & _). specialize (H 0 eq_refl). discriminate H.
Qed.

(* the body of EUDPlayerLoop as one of visit, the current player is the player whose turn it is *)
Definition as_pbody (body : cbody) : pbody := fun p m => let '(_, m, b) := body p m in (m, b).
Lemma cp_while_ok body : forall n k cp m, (k <= 8)%nat -> (k < n)%nat ->
  exists cp', cp_while n body (8 - Z.of_nat k) cp m =
    let '(t, m', b) := visit (filter (fun p => 8 - Z.of_nat k <=? p) players8) (as_pbody body) m in Some (t, cp', m', b).
Proof.
  induction n as [|n IH]; intros k cp m Hk Hn; [lia|]. cbn [cp_while]. destruct k as [|k].
  - change (8 - Z.of_nat 0) with 8. exists cp. reflexivity.
  - replace (8 - Z.of_nat (S k) <=? 7) with true by lia. rewrite (ge_step players8 _ sorted8).
    replace (mem_z (8 - Z.of_nat (S k)) players8) with true by (symmetry; apply mem_z_iff, in8; lia).
    replace (8 - Z.of_nat (S k) + 1) with (8 - Z.of_nat k) by lia. rewrite (u32_small (8 - Z.of_nat k)) by lia.
    rewrite playerexist_ok by lia. cbn [visit]. destruct (empty_list m (8 - Z.of_nat (S k))); [apply IH; lia|].
    unfold as_pbody at 1. destruct (body (8 - Z.of_nat (S k)) m) as [[c m1] b]. destruct b; [exists c; reflexivity|].
    destruct (IH k c m1 ltac:(lia) ltac:(lia)) as [cp' E]. exists cp'. rewrite E. destruct (visit _ (as_pbody body) m1) as [[t m2] b2]. reflexivity.
Qed.
Theorem C71_player_loop : forall n body cp m, (8 < n)%nat ->
  EUDPlayerLoop n body cp m = let '(t, m', b) := visit [0; 1; 2; 3; 4; 5; 6; 7] (as_pbody body) m in Some (t, cp, m', b).
Proof.
  intros n body cp m Hn. destruct (cp_while_ok body n 8 cp m ltac:(lia) Hn) as [c E]. unfold EUDPlayerLoop. change 0 with (8 - Z.of_nat 8) at 1. rewrite E.
  change (filter (fun p => 8 - Z.of_nat 8 <=? p) players8) with [0; 1; 2; 3; 4; 5; 6; 7].
  destruct (visit [0; 1; 2; 3; 4; 5; 6; 7] (as_pbody body) m) as [[t m'] b]. reflexivity.
Qed.
Theorem C71_player_exist : forall m p, 0 <= p < 2^32 -> playerexist m p = if (p <? 8) && negb (empty_list m p) then 1 else 0.
Proof.
  intros m p Hp. destruct (Z.ltb_spec p 8); cbn [andb].
  - pose proof (playerexist_ok m p ltac:(lia)) as E. destruct (empty_list m p); cbn [negb]; [lia|]. unfold playerexist in *. destruct (_ && _); [|lia]. destruct (_ =? u32 _); [cbn in E; discriminate|reflexivity].
  - unfold playerexist. replace ((0 <=? p) && (p <? 8)) with false by lia. reflexivity.
Qed.

(* ================= C72 ================= *)
(* the payload of the buffer lies at dword rb *)
Definition lies (m : mem) (rb : Z) (l : list Z) : Prop := forall i, (i < length l)%nat -> get m (rb + Z.of_nat i) = nth i l 0.
Lemma get_upd_out m v a b x : idx a <> idx b -> get (upd m a v) b = x <-> get m b = x.
Proof. intros H. rewrite get_upd_ne by exact H. reflexivity. Qed.
Lemma userp_ok u : 0 <= u < 2^32 -> forall fws n m rb,
  (length fws < n)%nat -> lies m rb (userp_buffer fws) ->
  Forall (fun a => u32 (pepd a) <> 0xFFFFFFFF /\ forall i, (i <= length fws)%nat -> idx (pepd a) <> idx (rb + Z.of_nat i)) fws ->
  exists m', userp_loop n u rb m = Some m' /\
    (forall a, In a fws -> dw m' a = u) /\
    (forall e, (forall a, In a fws -> idx e <> idx (pepd a)) -> get m' e = get m e).
Proof.
  intros Hu. induction fws as [|a fws IH]; intros n m rb Hn HL HF.
  - destruct n as [|n]; [cbn in Hn; lia|]. cbn [userp_loop]. pose proof (HL 0%nat ltac:(cbn; lia)) as E. rewrite Z.add_0_r in E. rewrite E.
    exists m. split; [reflexivity|]. split; [intros a []|reflexivity].
  - destruct n as [|n]; [cbn in Hn; lia|]. cbn [userp_loop]. pose proof (HL 0%nat ltac:(cbn; lia)) as E. rewrite Z.add_0_r in E. rewrite E. cbn [userp_buffer map app nth].
    inversion HF as [|? ? [H1 H2] HF']; subst. replace (u32 (pepd a) =? 0xFFFFFFFF) with false by lia.
    assert (IA : idx (u32 (pepd a)) = idx (pepd a)) by apply idx_u32.
    assert (SH : forall i, idx (u32 (rb + 1) + Z.of_nat i) = idx (rb + Z.of_nat (S i))).
    { intros i. replace (rb + Z.of_nat (S i)) with (rb + 1 + Z.of_nat i) by lia. unfold idx. rewrite <- (Z.add_mod_idemp_l (u32 (rb + 1))), <- (Z.add_mod_idemp_l (rb + 1)) by lia.
      change (u32 (rb + 1) mod 2^30) with (idx (u32 (rb + 1))). rewrite idx_u32. reflexivity. }
    destruct (IH n (upd m (u32 (pepd a)) u) (u32 (rb + 1))) as (m' & R & A1 & A2).
    + cbn in Hn. lia.
    + intros i Hi. rewrite (get_cong _ _ _ (SH i)). rewrite get_upd_ne.
      * rewrite (HL (S i)) by (cbn; unfold userp_buffer in Hi; lia). reflexivity.
      * rewrite IA. apply H2. unfold userp_buffer in Hi. rewrite app_length, map_length in Hi. cbn [length] in *. lia.
    + rewrite Forall_forall in *. intros b Hb. destruct (HF' b Hb) as [K1 K2]. split; [exact K1|]. intros i Hi. rewrite SH. apply K2. cbn [length]. lia.
    + exists m'. split; [exact R|]. split.
      * intros b [->|Hb]; [|apply A1, Hb]. unfold dw. fold (pepd b).
        destruct (in_dec Z.eq_dec (idx (pepd b)) (map (fun x => idx (pepd x)) fws)) as [I|I].
        -- apply in_map_iff in I as (c & C1 & C2). rewrite <- (A1 c C2). unfold dw. fold (pepd c). apply get_cong. symmetry. exact C1.
        -- rewrite A2; [|intros c Hc Q; apply I; rewrite Q; apply in_map_iff; exists c; auto]. rewrite (get_cong _ _ _ (eq_sym IA)), get_upd_eq. apply u32_small, Hu.
      * intros e He. rewrite A2 by (intros b Hb; apply He; right; exact Hb). apply get_upd_ne. rewrite IA. intros Q. apply (He a (or_introl eq_refl)). symmetry. exact Q.
Qed.
Theorem C72_local_player : forall fws n m rb, (length fws < n)%nat -> lies m rb (userp_buffer fws) ->
  Forall (fun a => u32 (pepd a) <> 0xFFFFFFFF /\ forall i, (i <= length fws)%nat -> idx (pepd a) <> idx (rb + Z.of_nat i)) fws ->
  exists m', initisusercp n rb m = Some m' /\
    (forall a, In a fws -> dw m' a = dw m 0x512684 mod 256) /\
    (forall e, (forall a, In a fws -> idx e <> idx (pepd a)) -> get m' e = get m e).
Proof.
  intros fws n m rb Hn HL HF. unfold initisusercp, inituserplayerid.
  replace (Z.land (get m (pepd 0x512684)) 0xFF) with (dw m 0x512684 mod 256) by (unfold dw, pepd; change 0xFF with (Z.ones 8); rewrite Z.land_ones by lia; reflexivity).
  assert (SH : forall i, idx (u32 rb + Z.of_nat i) = idx (rb + Z.of_nat i)).
  { intros i. unfold idx. rewrite <- (Z.add_mod_idemp_l (u32 rb)), <- (Z.add_mod_idemp_l rb) by lia. change (u32 rb mod 2^30) with (idx (u32 rb)). rewrite idx_u32. reflexivity. }
  apply userp_ok.
  - pose proof (Z.mod_pos_bound (dw m 0x512684) 256 eq_refl). lia.
  - exact Hn.
  - intros i Hi. rewrite (get_cong _ _ _ (SH i)). apply HL, Hi.
  - rewrite Forall_forall in *. intros a Ha. destruct (HF a Ha) as [K1 K2]. split; [exact K1|]. intros i Hi. rewrite SH. apply K2, Hi.
Qed.

(* ================= cases ================= *)
(* players 1 and 4 are human, player 4 has left *)
Definition ex_info (p : Z) : pinfo := mkpinfo 1 0 (if (p =? 1) || (p =? 4) || (p =? 6) then 6 else 5).
Definition ex_pm : mem := upd (fun _ => 0) (pepd (0x51A280 + 4 * 12 + 8)) (2^32 - 1 - (0x51A280 + 4 * 12 + 4)).
Example ex_loop_player : (match EUDLoopPlayer 10 (Some "Human"%string) (Some 19) None ex_info (fun p m => (upd m 3000000 p, false)) ex_pm with
  | Some (Some (t, m, b)) => t = [1; 6] /\ get m 3000000 = 6 /\ b = false | _ => False end) /\ wanted (Some "Human"%string) (Some 19) None (ex_info 6).
Proof.
  split; [vm_compute; auto|]. split; [|split].
  - intros s E _. injection E as <-. reflexivity.
  - intros f E. injection E as <-. reflexivity.
  - discriminate.
Qed.
Example ex_player_loop : (match EUDPlayerLoop 9 (fun p m => (77, m, p =? 5)) 3 ex_pm with
  | Some (t, c, m, b) => t = [0; 1; 2; 3; 5] /\ c = 3 /\ b = true | None => False end).
Proof. vm_compute. auto. Qed.
(* two cells, the buffer at dword 3000000, the user is player 6 *)
Definition ex_um : mem :=
  upd (upd (upd (upd (fun _ => 0) (pepd 0x512684) 0x01020306) 3000000 (pepd 0x6000000)) 3000001 (pepd 0x6000010)) 3000002 0xFFFFFFFF.
Example ex_userp : lies ex_um 3000000 (userp_buffer [0x6000000; 0x6000010]) /\
  (match initisusercp 3 3000000 ex_um with Some m => dw m 0x6000000 = 6 /\ dw m 0x6000010 = 6 /\ dw m 0x6000004 = 0 | None => False end).
Proof.
  split; [|vm_compute; auto]. intros i Hi. cbn in Hi. destruct i as [|[|[|i]]]; [reflexivity|reflexivity|reflexivity|lia].
Qed.

Print Assumptions C71_loop_player.
Print Assumptions C71_force_0.
Print Assumptions C71_force_0_refuted.
Print Assumptions C71_player_loop.
Print Assumptions C71_player_exist.
Print Assumptions C72_local_player.
