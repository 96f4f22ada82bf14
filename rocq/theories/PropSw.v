(* C21: a switch continues at the matching case. *)
From Coq Require Import ZArith Lia Bool List Permutation Sorted ZifyBool ZifyNat.
From Verif Require Import Lib Word WordX Machine MachineProofs MachineRefine SwModel SwProofs SwTable SwMachine PropInj.
Import ListNotations.
Open Scope Z_scope.

(* Specification: the block where a switch over [nums] with [mask] must
   continue for the value v: that of a case number equal to v & mask (numbers
   count modulo the mask), else the default. *)
Definition continues_at (mask : Z) (nums : list Z) (v : Z) (r : option Z) : Prop :=
  match r with
  | Some k => k = Z.land v mask /\ exists n, In n nums /\ Z.land n mask = k
  | None => forall n, In n nums -> Z.land n mask <> Z.land v mask
  end.

(* ---- the keys of the cases ---- *)
Lemma add_cases_spec mask nums : forall keys l, add_cases mask nums keys = Some l -> NoDup keys ->
  NoDup l /\ forall k, In k l <-> In k keys \/ In k (map (fun n => Z.land n mask) nums).
Proof.
  induction nums as [|n r IH]; intros keys l H Hn; cbn in H.
  - injection H as <-. split; [exact Hn|]. cbn. tauto.
  - destruct (negb _); [discriminate|]. destruct (in_dec Z.eq_dec (Z.land n mask) keys) as [|Hni]; [discriminate|].
    destruct (IH _ _ H) as [A B]; [constructor; assumption|]. split; [exact A|]. intros k. rewrite B. cbn. tauto.
Qed.
Lemma SS_lt l : StronglySorted Z.le l -> NoDup l -> StronglySorted Z.lt l.
Proof.
  induction 1 as [|a l Hs IH Hf]; intros Hn; [constructor|]. inversion Hn as [|? ? H1 H2]; subst.
  constructor; [apply IH, H2|]. rewrite Forall_forall in *. intros x Hx. specialize (Hf x Hx).
  assert (x <> a) by congruence. lia.
Qed.
Lemma case_keys_spec mask nums keys : 0 <= mask < 2 ^ 32 -> case_keys mask nums = Some keys ->
  StronglySorted Z.lt keys /\ (forall k, In k keys <-> In k (map (fun n => Z.land n mask) nums)) /\
  (forall k, In k keys -> 0 <= k < 2 ^ 32) /\ (forall k, In k keys -> Z.land k mask = k).
Proof.
  intros Hm H. unfold case_keys in H. destruct (add_cases mask nums []) as [l|] eqn:E; [|discriminate]. injection H as <-.
  destruct (add_cases_spec _ _ _ _ E (NoDup_nil Z)) as [A B].
  assert (Hin : forall k, In k (sorted l) <-> In k (map (fun n => Z.land n mask) nums)).
  { intros k. split; intros Hk.
    - eapply Permutation_in in Hk; [|apply sorted_perm]. apply B in Hk. destruct Hk as [[]|Hk]. exact Hk.
    - eapply Permutation_in; [apply Permutation_sym, sorted_perm|]. apply B. right. exact Hk. }
  split; [|split; [exact Hin|]].
  - apply SS_lt; [apply sorted_sorted|]. eapply Permutation_NoDup; [apply Permutation_sym, sorted_perm|exact A].
  - split; intros k Hk; apply Hin, in_map_iff in Hk; destruct Hk as [n [<- _]].
    + assert (H0 : 0 <= Z.land n mask) by (apply Z.land_nonneg; lia). split; [exact H0|].
      apply bits_lt; [exact H0|lia|]. intros i Hi. rewrite Z.land_spec, (bit_high mask i Hm Hi). apply andb_false_r.
    + rewrite <- Z.land_assoc, Z.land_diag. reflexivity.
Qed.
Lemma look_continues mask nums keys v : (forall k, In k keys <-> In k (map (fun n => Z.land n mask) nums)) ->
  continues_at mask nums v (look keys (Z.land v mask)).
Proof.
  intros H. unfold look. destruct (in_dec Z.eq_dec (Z.land v mask) keys) as [Hi|Hi]; cbn.
  - split; [reflexivity|]. apply H, in_map_iff in Hi. destruct Hi as [n [A B]]. exists n. auto.
  - intros n Hn E. apply Hi, H. rewrite <- E. apply in_map_iff. exists n. auto.
Qed.
(* which case numbers are rejected: exactly duplicates and, for a mask that is
   not 0xFFFFFFFF, numbers with bits outside the mask *)
Theorem C21_cases mask nums : (exists keys, case_keys mask nums = Some keys) <->
  (mask = 0xFFFFFFFF \/ forall n, In n nums -> Z.land n mask = n) /\ NoDup (map (fun n => Z.land n mask) nums).
Proof.
  assert (G : forall keys, NoDup keys -> ((exists l, add_cases mask nums keys = Some l) <->
     (mask = 0xFFFFFFFF \/ forall n, In n nums -> Z.land n mask = n) /\ NoDup (map (fun n => Z.land n mask) nums) /\
     forall n, In n nums -> ~ In (Z.land n mask) keys)).
  { induction nums as [|n r IH]; intros keys Hk.
    - cbn. split; [intros _; repeat split; [right; intros n []|constructor|intros n []]|eauto].
    - cbn [add_cases map].
      destruct (Z.eqb_spec mask 0xFFFFFFFF) as [Em|Em]; cbn [negb orb].
      + destruct (in_dec Z.eq_dec (Z.land n mask) keys) as [Hi|Hi].
        * split; [intros [l H]; discriminate|]. intros [_ [_ H]]. exfalso. apply (H n); [left; reflexivity|exact Hi].
        * rewrite IH by (constructor; assumption). split.
          -- intros [_ [A B]]. split; [left; exact Em|]. split.
             ++ constructor; [|exact A]. intros Hin. apply in_map_iff in Hin. destruct Hin as [x [E Hx]].
                apply (B x Hx). left. congruence.
             ++ intros x [<-|Hx]; [exact Hi|]. intros Hin. apply (B x Hx). right. exact Hin.
          -- intros [_ [A B]]. apply NoDup_cons_iff in A. destruct A as [A1 A2]. split; [left; exact Em|]. split; [exact A2|].
             intros x Hx [E|Hin]; [apply A1, in_map_iff; exists x; auto|].
             apply (B x); [right; exact Hx|exact Hin].
      + destruct (Z.eqb_spec (Z.land n mask) n) as [En|En]; cbn [negb].
        * destruct (in_dec Z.eq_dec (Z.land n mask) keys) as [Hi|Hi].
          -- split; [intros [l H]; discriminate|]. intros [_ [_ H]]. exfalso. apply (H n); [left; reflexivity|exact Hi].
          -- rewrite IH by (constructor; assumption). split.
             ++ intros [C [A B]]. split; [right; intros x [<-|Hx]; [exact En|destruct C as [C|C]; [contradiction|apply C, Hx]]|]. split.
                ** constructor; [|exact A]. intros Hin. apply in_map_iff in Hin. destruct Hin as [x [E Hx]].
                   apply (B x Hx). left. congruence.
                ** intros x [<-|Hx]; [exact Hi|]. intros Hin. apply (B x Hx). right. exact Hin.
             ++ intros [C [A B]]. apply NoDup_cons_iff in A. destruct A as [A1 A2].
                split; [destruct C as [C|C]; [left; exact C|right; intros x Hx; apply C; right; exact Hx]|]. split; [exact A2|].
                intros x Hx [E|Hin]; [apply A1, in_map_iff; exists x; auto|].
                apply (B x); [right; exact Hx|exact Hin].
        * split; [intros [l H]; discriminate|]. intros [[C|C] _]; [contradiction|]. exfalso. apply En, C. left. reflexivity. }
  specialize (G [] (NoDup_nil Z)). unfold case_keys.
  transitivity (exists l, add_cases mask nums [] = Some l).
  - destruct (add_cases mask nums []) as [l0|]; split; intros [l H]; try discriminate; eauto.
  - rewrite G. intuition.
Qed.

(* ---- the triggers as linked nodes ---- *)
Definition sw_inv (mask : Z) (keys : list Z) (s : lstate) : Prop :=
  match keys with
  | [] => True
  | _ => if Nat.leb (length keys) 3 then simple_inv keys s
         else if dense keys then table_inv keys mask s
         else fresh 0 (key_selector (length keys) mask keys [] 0) s
  end.
Lemma init_fresh base code : fresh base code (init_state base code).
Proof. intros i nd Hi. cbn [init_state nx]. replace (base + i - base)%nat with i by lia. rewrite Hi. reflexivity. Qed.
Lemma sw_init mask keys : sw_inv mask keys (init_state 0 (switch_code mask keys)).
Proof.
  unfold sw_inv, switch_code. destruct keys as [|k l]; [exact I|].
  destruct (Nat.leb (length (k :: l)) 3); [apply simple_init; discriminate|].
  destruct (dense (k :: l)); [|apply init_fresh].
  intros i nd Hi _. apply init_fresh, Hi.
Qed.
Lemma start_nonempty code : code <> [] -> start_of code = N 0.
Proof. destruct code; [congruence|reflexivity]. Qed.
Lemma selector_nonempty fuel mask keys reset base : (length keys <= fuel)%nat -> keys <> [] -> key_selector fuel mask keys reset base <> [].
Proof. destruct fuel, keys as [|a [|b [|c l]]]; cbn [length]; intros H1 H2; try lia; try congruence; discriminate. Qed.

(* does the switch have an action `restore`, a jump table? *)
Definition has_restore (keys : list Z) : bool := match keys with [] => false | _ => Nat.leb (length keys) 3 end.
Definition table_of (keys : list Z) : list tgt := if has_restore keys then [] else if dense keys then jump_entries keys else [].

Lemma sw_run P mask keys v s :
  StronglySorted Z.lt keys -> (forall k, In k keys -> 0 <= k < 2 ^ 32) -> (forall k, In k keys -> Z.land k mask = k) ->
  0 <= v < 2 ^ 32 -> 0 <= mask ->
  placed P 0 (switch_code mask keys) -> sw_inv mask keys s ->
  exists s', lsteps P (table_of keys) v (start_of (switch_code mask keys), s) (L (look keys (Z.land v mask)), s') /\ sw_inv mask keys s'.
Proof.
  intros Hs Hk Hm Hv Hmask HP HI. unfold sw_inv, switch_code, table_of, has_restore in *. destruct keys as [|k0 l0].
  - exists s. split; [|exact I]. apply lss_refl.
  - remember (k0 :: l0) as keys. assert (Hne : keys <> []) by (subst; discriminate). clear Heqkeys k0 l0.
    destruct (Nat.leb (length keys) 3).
    + rewrite start_nonempty by discriminate. apply simple_run; assumption.
    + destruct (dense keys).
      * apply table_run; assumption.
      * rewrite start_nonempty by (apply selector_nonempty; [apply Nat.le_refl|exact Hne]).
        destruct (selector_run P [] v mask (length keys) keys [] 0 s) as [s' [R E]]; try assumption; [apply Nat.le_refl|intros p []|].
        exists s'. split; [exact R|]. refine (fresh_seq _ _ s s' _ HI). intros n _. symmetry. apply E.
Qed.

(* runs are deterministic, so the block reached is the only one *)
Lemma lstep_det P T v x y z : lstep P T v x y -> lstep P T v x z -> y = z.
Proof.
  intros H1 H2. destruct H1 as [n nd s s' HP Hs|k t s Hk Ht]; inversion H2; subst; try congruence.
  - replace nd0 with nd by congruence. reflexivity.
Qed.
Lemma lsteps_det P T v x r1 s1 r2 s2 : lsteps P T v x (L r1, s1) -> lsteps P T v x (L r2, s2) -> (r1, s1) = (r2, s2).
Proof.
  remember (L r1, s1) as y. intros H. revert Heqy. induction H as [x|x y z Hst Hsts IH]; intros -> H2.
  - inversion H2 as [|? ? ? Hx]; subst; [reflexivity|inversion Hx].
  - inversion H2 as [|? w ? Hx Hy]; subst; [inversion Hst|].
    rewrite (lstep_det _ _ _ _ _ _ Hst Hx) in *. apply IH; [reflexivity|exact Hy].
Qed.

(* Any number of executions, with any values: each one continues at the right
   block. *)
Fixpoint executions (P : lprog) (T : list tgt) (start : tgt) (ok : Z -> option Z -> Prop) (vs : list Z) (s : lstate) : Prop :=
  match vs with
  | [] => True
  | v :: r => exists c s', lsteps P T v (start, s) (L c, s') /\ ok v c /\ executions P T start ok r s'
  end.
Theorem C21_nodes mask nums keys vs : 0 <= mask < 2 ^ 32 -> case_keys mask nums = Some keys ->
  (forall v, In v vs -> 0 <= v < 2 ^ 32) ->
  let code := switch_code mask keys in
  executions (code_prog 0 code) (table_of keys) (start_of code) (continues_at mask nums) vs (init_state 0 code).
Proof.
  intros Hm HK Hvs code. destruct (case_keys_spec mask nums keys Hm HK) as (S1 & S2 & S3 & S4).
  assert (HP : placed (code_prog 0 code) 0 code).
  { intros i nd Hi. unfold code_prog. cbn [Nat.ltb Nat.leb Nat.add]. rewrite Nat.sub_0_r. exact Hi. }
  pose proof (sw_init mask keys) as HI. fold code in HI. generalize dependent (init_state 0 code). intros s HI.
  revert s HI. induction vs as [|v vs IH]; intros s HI; [exact I|].
  destruct (sw_run (code_prog 0 code) mask keys v s S1 S3 S4 (Hvs v (or_introl eq_refl)) (proj1 Hm) HP HI) as [s' [R I']].
  cbn [executions]. exists (look keys (Z.land v mask)), s'. split; [exact R|]. split; [apply look_continues, S2|].
  apply IH; [intros x Hx; apply Hvs; right; exact Hx|exact I'].
Qed.

(* ---- the triggers in memory ---- *)
Definition code_small (B : nat) (ur : bool) (code : list lnode) : Prop :=
  forall nd, In nd code -> node_small nd /\ Forall (in_acts B ur) (n_acts nd).
Lemma resets_in B ur base reset : below base reset -> (base <= B)%nat -> Forall (in_acts B ur) (resets reset).
Proof.
  intros Hb HB. apply Forall_forall. intros a Ha. unfold resets in Ha. apply in_map_iff in Ha. destruct Ha as [p [<- Hp]].
  cbn. specialize (Hb p Hp). lia.
Qed.
Lemma selector_small B ur mask fuel : forall keys reset base, small mask -> (forall k, In k keys -> small k) -> below base reset ->
  (base + length (key_selector fuel mask keys reset base) <= B)%nat -> code_small B ur (key_selector fuel mask keys reset base).
Proof.
  induction fuel as [|fuel IH]; intros keys reset base Hm Hk Hb HB; [intros nd []|].
  destruct keys as [|k [|k2 [|k3 keys]]].
  - intros nd [].
  - cbn [key_selector] in *. rewrite app_length in HB. cbn [length] in HB.
    assert (HR : Forall (in_acts B ur) (resets reset)) by (eapply resets_in; [exact Hb|lia]).
    assert (Hkk : small k) by (apply Hk; left; reflexivity).
    intros nd Hin. apply in_app_or in Hin. destruct Hin as [[<-|[<-|[]]]|Hin]; unfold node_small; cbn [n_cond n_acts].
    + split; [split; assumption|]. constructor; [cbn; lia|exact HR].
    + split; [exact I|]. repeat constructor. cbn. lia.
    + destruct reset; [destruct Hin|]. destruct Hin as [<-|[]]. cbn [n_cond n_acts]. split; [exact I|exact HR].
  - change (key_selector (S fuel) mask [k; k2] reset base) with
      ([ mknode (Some (Exactly, k, mask)) (ASet base (N (base + 1)) :: resets reset) (N (base + 2));
          mknode None [ASet base (N (base + 2))] (L (Some k)) ] ++ key_selector fuel mask [k2] reset (base + 2)) in *.
    rewrite app_length in HB. cbn [length] in HB.
    assert (HR : Forall (in_acts B ur) (resets reset)) by (eapply resets_in; [exact Hb|lia]).
    assert (Hkk : small k) by (apply Hk; left; reflexivity).
    intros nd Hin. apply in_app_or in Hin. destruct Hin as [[<-|[<-|[]]]|Hin]; unfold node_small; cbn [n_cond n_acts].
    + split; [split; assumption|]. constructor; [cbn; lia|exact HR].
    + split; [exact I|]. repeat constructor. cbn. lia.
    + apply (IH [k2] reset (base + 2)%nat); try assumption.
      * intros x Hx. apply Hk. right. exact Hx.
      * intros p Hp. specialize (Hb p Hp). lia.
      * lia.
  - remember (k :: k2 :: k3 :: keys) as ks eqn:Eks.
    set (mid := (length ks / 2)%nat).
    set (left := key_selector fuel mask (firstn mid ks) reset (base + 1)).
    set (br2 := (base + 1 + length left)%nat).
    assert (EC : key_selector (S fuel) mask ks reset base =
       mknode (Some (AtLeast, nth mid ks 0, mask)) (ASet base (N br2) :: resets reset) (N (base + 1))
        :: left ++ key_selector fuel mask (skipn mid ks) [(base, N (base + 1))] br2)
      by (subst ks; reflexivity).
    rewrite EC in HB |- *. cbn [length] in HB. rewrite app_length in HB.
    assert (HR : Forall (in_acts B ur) (resets reset)) by (eapply resets_in; [exact Hb|lia]).
    intros nd [<-|Hin].
    + unfold node_small; cbn [n_cond n_acts]. split; [split; [|exact Hm]|constructor; [cbn; lia|exact HR]].
      apply Hk. apply nth_In. subst mid. apply Nat.div_lt; [subst ks; cbn; lia|lia].
    + apply in_app_or in Hin. destruct Hin as [Hin|Hin].
      * apply (IH (firstn mid ks) reset (base + 1)%nat); try assumption.
        -- intros x Hx. apply Hk. rewrite <- (firstn_skipn mid ks). apply in_or_app. left. exact Hx.
        -- intros p Hp. specialize (Hb p Hp). lia.
        -- fold left. lia.
      * apply (IH (skipn mid ks) [(base, N (base + 1))] br2); try assumption.
        -- intros x Hx. apply Hk. rewrite <- (firstn_skipn mid ks). apply in_or_app. right. exact Hx.
        -- intros p [<-|[]]. cbn. unfold br2. lia.
        -- unfold br2 in *. lia.
Qed.
Lemma simple_small mask keys : small mask -> (forall k, In k keys -> small k) -> keys <> [] ->
  code_small (length (simple_code mask keys)) true (simple_code mask keys).
Proof.
  intros Hm Hk Hne. unfold simple_code. cbn [length]. rewrite map_length, seq_length.
  intros nd [<-|Hin].
  - split; [exact I|]. repeat constructor.
  - apply in_map_iff in Hin. destruct Hin as [i [<- Hi]]. apply in_seq in Hi. unfold simple_node, node_small. cbn [n_cond n_acts].
    split; [split; [apply Hk, nth_In; lia|exact Hm]|]. constructor; [cbn; lia|]. constructor; [cbn; split; [reflexivity|lia]|constructor].
Qed.
Lemma bit_small B ur j after bs : forall i base, (j < B)%nat -> (forall b, In b bs -> small b) -> code_small B ur (bit_nodes j i bs base after).
Proof.
  induction bs as [|b r IH]; intros i base Hj Hb nd Hin; [destruct Hin|].
  cbn [bit_nodes] in Hin. destruct Hin as [<-|Hin].
  - unfold node_small. cbn [n_cond n_acts]. split; [split; [split; reflexivity || (vm_compute; discriminate)|apply Hb; left; reflexivity]|].
    repeat constructor. exact Hj.
  - apply (IH (i + 1) (base + 1)%nat); [exact Hj|intros x Hx; apply Hb; right; exact Hx|exact Hin].
Qed.
Lemma bit_nodes_length j after bs : forall i base, length (bit_nodes j i bs base after) = length bs.
Proof. induction bs as [|b r IH]; intros i base; [reflexivity|]. cbn [bit_nodes length]. rewrite IH. reflexivity. Qed.
Lemma land_small x m : small m -> small (Z.land x m).
Proof.
  intros Hm. assert (H0 : 0 <= Z.land x m) by (apply Z.land_nonneg; unfold small in Hm; lia). split; [exact H0|].
  apply bits_lt; [exact H0|lia|]. intros i Hi. rewrite Z.land_spec, (bit_high m i Hm Hi). apply andb_false_r.
Qed.
Lemma key_and_small keys : keys <> [] -> (forall k, In k keys -> small k) -> small (key_and keys).
Proof.
  intros Hne Hk. destruct keys as [|k l]; [congruence|].
  replace (key_and (k :: l)) with (Z.land (key_and (k :: l)) k); [apply land_small, Hk; left; reflexivity|].
  apply Z.bits_inj'. intros i Hi. rewrite Z.land_spec, key_and_bit. cbn [forallb]. destruct (Z.testbit k i); [apply andb_true_r|reflexivity].
Qed.
Lemma check_small B ur mask keys base : small mask -> keys <> [] -> (forall k, In k keys -> small k) ->
  (base + length (check_code mask keys base) <= B)%nat -> code_small B ur (check_code mask keys base).
Proof.
  intros Hm Hne Hk HB nd Hin. unfold check_code in *. destruct (inv_mask mask keys =? 0); [destruct Hin|]. cbn [length] in HB.
  destruct Hin as [<-|[<-|[]]]; unfold node_small; cbn [n_cond n_acts].
  - split; [split; [apply key_and_small; assumption|apply land_small, Hm]|]. constructor; [|constructor]. cbn [in_acts]. lia.
  - split; [exact I|]. constructor; [|constructor]. cbn [in_acts]. lia.
Qed.
Lemma table_small mask keys : small mask -> keys <> [] -> (forall k, In k keys -> small k) ->
  code_small (length (table_code mask keys)) false (table_code mask keys).
Proof.
  intros Hm Hne Hk. rewrite table_code_eq, app_length. cbn [length]. rewrite bit_nodes_length. pose proof (jumper_eq keys mask) as Ej.
  intros nd Hin. apply in_app_or in Hin. destruct Hin as [Hin|[<-|Hin]].
  - refine (check_small _ false mask keys 0 Hm Hne Hk _ nd Hin). lia.
  - split; [exact I|]. constructor; [|constructor]. cbn [in_acts]. lia.
  - eapply bit_small; [| |exact Hin]; [lia|apply key_bits_small].
Qed.

Lemma switch_small mask keys : small mask -> (forall k, In k keys -> small k) ->
  code_small (length (switch_code mask keys)) (has_restore keys) (switch_code mask keys).
Proof.
  intros Hm Hk. unfold switch_code, has_restore. destruct keys as [|k l]; [intros nd []|].
  remember (k :: l) as keys. assert (Hne : keys <> []) by (subst; discriminate). clear Heqkeys k l.
  destruct (Nat.leb (length keys) 3); [apply simple_small; assumption|].
  destruct (dense keys); [apply table_small; assumption|].
  apply selector_small; try assumption; [intros p []|lia].
Qed.

(* The switch is linked into a program: its triggers and the entries of its
   jump table are there; the dwords it writes are distinct, and are not the
   switched dword. *)
Record linked (P : prog) (prot : Z -> bool) (pl : place) (e mask : Z) (keys : list Z) : Prop := mklinked {
  ld_code : forall n nd, nth_error (switch_code mask keys) n = Some nd -> P (u32 (pA pl n)) = Some (mnode pl e n nd);
  ld_table : forall k t, nth_error (table_of keys) k = Some t -> P (u32 (pJ pl + 20 * Z.of_nat k)) = Some (mjump pl t);
  ld_dist : forall n k, (n < length (switch_code mask keys))%nat -> (k < length (switch_code mask keys))%nat ->
     idx (cell pl n) = idx (cell pl k) -> n = k;
  ld_free : forall a, owned pl (length (switch_code mask keys)) (has_restore keys) a -> prot (idx a) = false;
  ld_plain : forall n, (n < length (switch_code mask keys))%nat -> plain (cell pl n);
  ld_restore : has_restore keys = true -> plain (pRP pl) /\ plain (pRV pl) /\ idx (pRP pl) <> idx (pRV pl) /\
    forall n, (n < length (switch_code mask keys))%nat -> idx (pRP pl) <> idx (cell pl n) /\ idx (pRV pl) <> idx (cell pl n);
  ld_epd : plain e /\ ~ owned pl (length (switch_code mask keys)) (has_restore keys) e }.
(* memory as loaded: next pointers as built, `restore` aimed at the first
   comparison (swblock.py 168-169) *)
Definition loaded (pl : place) (mask : Z) (keys : list Z) (m : mem) : Prop :=
  (forall n nd, nth_error (switch_code mask keys) n = Some nd -> get m (cell pl n) = u32 (taddr pl (n_next nd))) /\
  (has_restore keys = true -> forall nd, nth_error (switch_code mask keys) 1 = Some nd ->
     get m (pRP pl) = u32 (cell pl 1) /\ get m (pRV pl) = u32 (taddr pl (n_next nd))).

(* [good vs m]: from memory m, executions with the values vs (each read from
   the dword e when the execution starts) go to the right blocks and change
   nothing but the switch's own dwords, whatever the rest of the program does
   to other dwords in between. *)
Fixpoint good (P : prog) (prot : Z -> bool) (start : Z) (lab : option Z -> Z) (own : Z -> Prop) (e : Z) (ok : Z -> option Z -> Prop)
    (vs : list Z) (m : mem) : Prop :=
  match vs with
  | [] => True
  | v :: r => get m e = v ->
      exists c m', ok v c /\ steps P prot (start, m) (u32 (lab c), m') /\ (forall a, ~ own a -> get m' a = get m a) /\
        forall m2, (forall a, own a -> get m2 a = get m' a) -> good P prot start lab own e ok r m2
  end.

Lemma rel_stable pl B ur m m2 s : (forall a, owned pl B ur a -> get m2 a = get m a) -> rel pl B ur m s -> rel pl B ur m2 s.
Proof.
  intros H [R1 R2]. split.
  - intros n Hn. rewrite H by (left; exists n; auto). apply R1, Hn.
  - intros Hu. destruct (R2 Hu) as (A & C & D). rewrite !H by (right; auto). auto.
Qed.

Lemma restore_node mask keys : has_restore keys = true -> exists nd, nth_error (switch_code mask keys) 1 = Some nd.
Proof.
  intros H. unfold switch_code, has_restore in *. destruct keys as [|k l]; [discriminate|]. rewrite H. cbn. eauto.
Qed.

Theorem C21_switch P prot pl e mask nums keys vs m :
  0 <= mask < 2 ^ 32 -> case_keys mask nums = Some keys -> linked P prot pl e mask keys -> loaded pl mask keys m ->
  good P prot (u32 (taddr pl (start_of (switch_code mask keys)))) (pL pl)
       (owned pl (length (switch_code mask keys)) (has_restore keys)) e (continues_at mask nums) vs m.
Proof.
  intros Hm HK HL [Hm1 Hm2]. destruct (case_keys_spec mask nums keys Hm HK) as (S1 & S2 & S3 & S4).
  set (code := switch_code mask keys) in *. set (B := length code). set (ur := has_restore keys) in *.
  assert (HP : placed (code_prog 0 code) 0 code).
  { intros i nd Hi. unfold code_prog. cbn [Nat.ltb Nat.leb Nat.add]. rewrite Nat.sub_0_r. exact Hi. }
  pose proof (switch_small mask keys Hm S3) as HS. fold code B ur in HS.
  assert (HC : forall n nd, code_prog 0 code n = Some nd -> nth_error code n = Some nd).
  { intros n nd. unfold code_prog. cbn [Nat.ltb Nat.leb]. rewrite Nat.sub_0_r. auto. }
  (* one execution *)
  assert (G : forall v m s, get m e = v -> rel pl B ur m s -> sw_inv mask keys s ->
     exists m' s', steps P prot (u32 (taddr pl (start_of code)), m) (u32 (pL pl (look keys (Z.land v mask))), m') /\
       rel pl B ur m' s' /\ sw_inv mask keys s' /\ frame pl B ur m m').
  { clear m Hm1 Hm2. intros v m s Hv HR HI.
    assert (Hvr : 0 <= v < 2 ^ 32) by (rewrite <- Hv; apply get_range).
    destruct (sw_run (code_prog 0 code) mask keys v s S1 S3 S4 Hvr (proj1 Hm) HP HI) as [s' [R I']]. fold code in R.
    destruct (sim_steps P prot pl e v B ur) with (LP := code_prog 0 code) (T := table_of keys) (x := (start_of code, s))
      (y := (L (look keys (Z.land v mask)), s')) (m := m) (Rd := fun m => get m e = v) as (m' & A1 & A2 & A3 & A4).
    - apply (ld_dist _ _ _ _ _ _ HL).
    - apply (ld_free _ _ _ _ _ _ HL).
    - apply (ld_plain _ _ _ _ _ _ HL).
    - apply (ld_restore _ _ _ _ _ _ HL).
    - intros m1 H1 c k mk. rewrite <- H1. apply conds_one_MX. apply (ld_epd _ _ _ _ _ _ HL).
    - intros m1 a x H1 Ha. rewrite get_upd_ne; [exact H1|]. intros E.
      apply (proj2 (ld_epd _ _ _ _ _ _ HL)). unfold owned in *. rewrite <- E. exact Ha.
    - intros n nd Hn. apply HC in Hn. split; [apply nth_error_Some; congruence|].
      destruct (HS nd (nth_error_In _ _ Hn)) as [Q1 Q2]. split; [exact Q1|]. split; [exact Q2|].
      apply (ld_code _ _ _ _ _ _ HL), Hn.
    - apply (ld_table _ _ _ _ _ _ HL).
    - exact R.
    - exact HR.
    - exact Hv.
    - exists m', s'. split; [exact A1|]. split; [exact A2|]. split; [exact I'|exact A4]. }
  assert (HR0 : rel pl B ur m (init_state 0 code)).
  { split.
    - intros n Hn. cbn [init_state nx]. rewrite Nat.sub_0_r. destruct (nth_error code n) as [nd|] eqn:En.
      + apply (Hm1 n nd En).
      + apply nth_error_None in En. subst B. lia.
    - intros Hu. cbn [init_state rn rt Nat.add]. destruct (restore_node mask keys Hu) as [nd En]. fold code in En. rewrite En.
      destruct (Hm2 Hu nd En) as [Q1 Q2]. split; [exact Q1|]. split; [exact Q2|]. subst B. apply nth_error_Some. congruence. }
  pose proof (sw_init mask keys) as HI0. fold code in HI0. generalize dependent (init_state 0 code). clear Hm1 Hm2. intros s HR HI.
  revert m s HR HI. induction vs as [|v vs IH]; intros m s HR HI; [exact I|].
  intros Hv. destruct (G v m s Hv HR HI) as (m' & s' & A1 & A2 & A3 & A4).
  exists (look keys (Z.land v mask)), m'. split; [apply look_continues, S2|]. split; [exact A1|]. split; [exact A4|].
  intros m2 Hm2. apply (IH m2 s'); [|exact A3]. eapply rel_stable; [exact Hm2|exact A2].
Qed.

(* ---- the dword's EPD is in a variable (EPDSwitch) ---- *)
(* Node 0 is cpcache's trigger, which other code uses too: between executions
   its next pointer may change in any way.  An execution either leaves for the
   default at once (failed check of the common bits), or runs to node 0, whose
   next pointer then leads to the right block, directly or by one entry of the
   jump table. *)
Definition table_cp (keys : list Z) : list tgt := match keys with [] => [] | _ => if dense keys then jump_entries keys else [] end.
Fixpoint executions_cp (P : lprog) (T : list tgt) (start : tgt) (ok : Z -> option Z -> Prop) (vs : list Z) (s : lstate) : Prop :=
  match vs with
  | [] => True
  | v :: r => exists c s', (lsteps P T v (start, s) (L c, s') \/
                            (lsteps P T v (start, s) (N 0, s') /\ lsteps P T v (nx s' 0, s') (L c, s'))) /\ ok v c /\
      forall s2, (forall n, n <> 0%nat -> nx s2 n = nx s' n) -> rn s2 = rn s' -> rt s2 = rt s' -> executions_cp P T start ok r s2
  end.
Definition start_cp (keys : list Z) : tgt := match keys with [] => L None | _ => N 1 end.
Lemma sw_cp_run P mask keys v s :
  StronglySorted Z.lt keys -> (forall k, In k keys -> 0 <= k < 2 ^ 32) -> (forall k, In k keys -> Z.land k mask = k) ->
  0 <= v < 2 ^ 32 -> 0 <= mask ->
  placed P 1 (switch_code_cp mask keys) -> fresh 1 (switch_code_cp mask keys) s ->
  exists s', (forall n, n <> 0%nat -> nx s' n = nx s n) /\
    (lsteps P (table_cp keys) v (start_cp keys, s) (L (look keys (Z.land v mask)), s') \/
     (lsteps P (table_cp keys) v (start_cp keys, s) (N 0, s') /\
      lsteps P (table_cp keys) v (nx s' 0, s') (L (look keys (Z.land v mask)), s'))).
Proof.
  intros Hs Hk Hm Hv Hmask HP HF. unfold switch_code_cp, table_cp, start_cp in *. destruct keys as [|k0 l0].
  - exists s. split; [reflexivity|]. left. apply lss_refl.
  - remember (k0 :: l0) as keys. assert (Hne : keys <> []) by (subst; discriminate). clear Heqkeys k0 l0.
    destruct (dense keys).
    + destruct (table_cp_run P keys v mask Hne Hk Hm Hv Hmask 0 1 s Nat.lt_0_1 HP HF) as (t & s' & R & A & _ & _ & [[-> E]|[-> (k & E1 & E2 & E3)]]).
      * exists s'. split; [exact A|]. left. rewrite E. exact R.
      * exists s'. split; [exact A|]. right. split; [exact R|]. rewrite E1. eapply lss_cons; [apply ls_jump; [exact E2|exact E3]|apply lss_refl].
    + rewrite placed_cons in HP. rewrite fresh_cons in HF. destruct HP as [P0 P1], HF as [F0 F1]. cbn [n_next] in F0.
      set (s1 := set_nx s 0 (L None)).
      assert (Q : exists s', lsteps P [] v (N 2, s1) (N 0, s') /\ cp_result 0 [] s1 s' (look keys (Z.land v mask))).
      { apply (selector_cp_run P [] v mask 0 (length keys) keys [] 2 s1); try assumption; try (intros p []);
          [apply Nat.le_refl|lia|apply set_nx_eq]. }
      destruct Q as (s' & R & A & B & _).
      exists s'. split.
      * intros n Hn. rewrite (B n Hn). cbn [resets map do_lacts fold_left]. unfold do_lacts. cbn [fold_left]. apply set_nx_ne, Hn.
      * right. split.
        -- eapply lsteps_trans; [|exact R]. eapply node_true; [exact P0|reflexivity|reflexivity|].
           exact F0.
        -- rewrite A. apply lss_refl.
Qed.
Theorem C21_nodes_cp mask nums keys vs : 0 <= mask < 2 ^ 32 -> case_keys mask nums = Some keys ->
  (forall v, In v vs -> 0 <= v < 2 ^ 32) ->
  let code := switch_code_cp mask keys in
  executions_cp (code_prog 1 code) (table_cp keys) (start_cp keys) (continues_at mask nums) vs (init_state 1 code).
Proof.
  intros Hm HK Hvs code. destruct (case_keys_spec mask nums keys Hm HK) as (S1 & S2 & S3 & S4).
  assert (HP : placed (code_prog 1 code) 1 code).
  { intros i nd Hi. unfold code_prog. cbn [Nat.ltb Nat.leb Nat.add]. replace (S i - 1)%nat with i by lia. exact Hi. }
  pose proof (init_fresh 1 code) as HI. generalize dependent (init_state 1 code). intros s HI.
  revert s HI. induction vs as [|v vs IH]; intros s HI; [exact I|].
  destruct (sw_cp_run (code_prog 1 code) mask keys v s S1 S3 S4 (Hvs v (or_introl eq_refl)) (proj1 Hm) HP HI) as [s' [A R]].
  cbn [executions_cp]. exists (look keys (Z.land v mask)), s'. split; [exact R|]. split; [apply look_continues, S2|].
  intros s2 E _ _. apply IH; [intros x Hx; apply Hvs; right; exact Hx|].
  intros i nd Hi. rewrite E, A by lia. apply HI, Hi.
Qed.

(* ---- a constant ---- *)
(* right when the constant has no bits outside the mask ... *)
Theorem C21_const mask nums keys v : 0 <= mask < 2 ^ 32 -> case_keys mask nums = Some keys -> Z.land v mask = v ->
  continues_at mask nums v (switch_const keys v).
Proof.
  intros Hm HK Hv. destruct (case_keys_spec mask nums keys Hm HK) as (_ & S2 & _). unfold switch_const.
  rewrite <- Hv at 2. apply look_continues, S2.
Qed.
(* ... and wrong otherwise: the mask is not applied (swblock.py 138-145), so
   EUDSwitch(0x105, 0xFF) with a case 5 takes the default *)
Theorem C21_const_refuted : exists mask nums keys v, 0 <= mask < 2 ^ 32 /\ case_keys mask nums = Some keys /\ 0 <= v < 2 ^ 32 /\
  ~ continues_at mask nums v (switch_const keys v).
Proof.
  exists 0xFF, [5], [5], 0x105. split; [lia|]. split; [reflexivity|]. split; [lia|].
  replace (switch_const [5] 0x105) with (@None Z) by reflexivity. cbn [continues_at]. intros H. apply (H 5); [left; reflexivity|reflexivity].
Qed.

(* ---- two cases with one block ---- *)
(* the test by one branch accepts exactly the two keys *)
Theorem C21_merge mask k1 k2 b v : 0 <= mask < 2 ^ 32 -> Z.land k1 mask = k1 -> Z.land k2 mask = k2 -> k1 < k2 ->
  0 <= b -> Z.lor k1 k2 - Z.land k1 k2 = 2 ^ b ->
  let code := merge_code mask k1 k2 in
  exists s', lsteps (code_prog 0 code) [] v (N 0, init_state 0 code)
    (L (if in_dec Z.eq_dec (Z.land v mask) [k1; k2] then Some k1 else None), s') /\
    forall n, nx s' n = nx (init_state 0 code) n.
Proof.
  intros Hm E1 E2 Hlt Hb Hx code.
  assert (HxX : Z.lor k1 k2 = Z.lxor k1 k2 + Z.land k1 k2).
  { rewrite Z.add_nocarry_lxor.
    - apply Z.bits_inj'. intros i _. rewrite !Z.lxor_spec, Z.lor_spec, Z.land_spec. destruct (Z.testbit k1 i), (Z.testbit k2 i); reflexivity.
    - apply Z.bits_inj'. intros i _. rewrite Z.land_spec, Z.lxor_spec, Z.land_spec, Z.bits_0. destruct (Z.testbit k1 i), (Z.testbit k2 i); reflexivity. }
  assert (Hxor : forall i, 0 <= i -> xorb (Z.testbit k1 i) (Z.testbit k2 i) = Z.eqb b i).
  { intros i Hi. rewrite <- Z.lxor_spec. replace (Z.lxor k1 k2) with (2 ^ b) by lia. rewrite Z.pow2_bits_eqb by exact Hb. reflexivity. }
  assert (Hc : cond_holds v (Some (Exactly, Z.land k1 k2, Z.land (Z.lnot (Z.lor k1 k2 - Z.land k1 k2)) mask)) =
               if in_dec Z.eq_dec (Z.land v mask) [k1; k2] then true else false).
  { cbn [cond_holds do_cmp]. rewrite Hx.
    assert (Hbit : forall i, 0 <= i -> Z.testbit (Z.land v (Z.land (Z.lnot (2 ^ b)) mask)) i = Z.testbit (Z.land v mask) i && negb (Z.eqb b i)).
    { intros i Hi. rewrite !Z.land_spec, Z.lnot_spec, Z.pow2_bits_eqb by lia.
      destruct (Z.testbit v i), (Z.testbit mask i), (b =? i); reflexivity. }
    destruct (in_dec Z.eq_dec (Z.land v mask) [k1; k2]) as [Hin|Hin].
    - apply Z.eqb_eq. apply Z.bits_inj'. intros i Hi. rewrite (Hbit i Hi), (Z.land_spec k1 k2). specialize (Hxor i Hi).
      destruct Hin as [<-|[<-|[]]]; destruct (Z.testbit k1 i), (Z.testbit k2 i), (b =? i); cbn in *; congruence.
    - apply Z.eqb_neq. intros E. apply Hin.
      assert (Hb' : forall i, 0 <= i -> Z.testbit (Z.land v mask) i && negb (b =? i) = Z.testbit k1 i && Z.testbit k2 i).
      { intros i Hi. rewrite <- (Hbit i Hi), E, Z.land_spec. reflexivity. }
      assert (Hd : Z.testbit (Z.land v mask) b = Z.testbit k1 b \/ Z.testbit (Z.land v mask) b = Z.testbit k2 b).
      { specialize (Hxor b Hb). rewrite Z.eqb_refl in Hxor.
        destruct (Z.testbit k1 b), (Z.testbit k2 b), (Z.testbit (Z.land v mask) b); cbn in *; auto; congruence. }
      assert (G : forall k, (forall i, 0 <= i -> b <> i -> Z.testbit k i = Z.testbit k1 i && Z.testbit k2 i) ->
                Z.testbit (Z.land v mask) b = Z.testbit k b -> k = Z.land v mask).
      { intros k K1 K2. apply Z.bits_inj'. intros i Hi. destruct (Z.eq_dec b i) as [<-|Hne]; [symmetry; exact K2|].
        rewrite (K1 i Hi Hne), <- (Hb' i Hi). rewrite (proj2 (Z.eqb_neq b i) Hne). apply andb_true_r. }
      assert (K : forall i, 0 <= i -> b <> i -> Z.testbit k1 i = Z.testbit k2 i).
      { intros i Hi Hne. specialize (Hxor i Hi). rewrite (proj2 (Z.eqb_neq b i) Hne) in Hxor.
        destruct (Z.testbit k1 i), (Z.testbit k2 i); cbn in *; congruence. }
      destruct Hd as [Hd|Hd].
      + left. apply G; [|exact Hd]. intros i Hi Hne. rewrite <- (K i Hi Hne). destruct (Z.testbit k1 i); reflexivity.
      + right. left. apply G; [|exact Hd]. intros i Hi Hne. rewrite <- (K i Hi Hne). destruct (Z.testbit k1 i); reflexivity. }
  assert (P0 : code_prog 0 code 0%nat = Some (mknode (Some (Exactly, Z.land k1 k2, Z.land (Z.lnot (Z.lor k1 k2 - Z.land k1 k2)) mask)) [ASet 0 (N 1)] (L None)))
    by reflexivity.
  assert (P1 : code_prog 0 code 1%nat = Some (mknode None [ASet 0 (L None)] (L (Some k1)))) by reflexivity.
  destruct (in_dec Z.eq_dec (Z.land v mask) [k1; k2]) as [Hin|Hin].
  - eexists. split.
    + eapply lsteps_trans.
      * eapply node_true; [exact P0|exact Hc|reflexivity|]. unfold do_lacts. cbn [fold_left do_lact n_acts]. apply set_nx_eq.
      * eapply node_true; [exact P1|reflexivity|reflexivity|]. unfold do_lacts. cbn [fold_left do_lact n_acts]. rewrite !set_nx_ne by lia. reflexivity.
    + intros n. cbn [do_lacts fold_left do_lact n_acts]. unfold do_lacts. cbn [fold_left do_lact].
      destruct (Nat.eq_dec n 0%nat) as [->|Hn]; [rewrite set_nx_eq; reflexivity|]. rewrite !set_nx_ne by exact Hn. reflexivity.
  - exists (init_state 0 code). split; [|reflexivity]. eapply node_false; [exact P0|exact Hc|reflexivity].
Qed.

(* ---- the jump buffer ---- *)
Lemma nth_groups {A B} (f : A -> list B) (w : nat) (l : list A) : (forall x, length (f x) = w) -> forall j c x, nth_error l j = Some x -> (c < w)%nat ->
  nth_error (flat_map f l) (w * j + c) = nth_error (f x) c.
Proof.
  intros Hw. induction l as [|a l IH]; intros j c x Hj Hc; [destruct j; discriminate|].
  cbn [flat_map]. destruct j as [|j].
  - injection Hj as ->. rewrite Nat.mul_0_r. apply nth_error_app1. rewrite Hw. exact Hc.
  - rewrite nth_error_app2 by (rewrite Hw; nia). rewrite Hw. replace (w * S j + c - w)%nat with (w * j + c)%nat by nia. apply IH; assumption.
Qed.
Lemma groups_length {A B} (f : A -> list B) (w : nat) (l : list A) : (forall x, length (f x) = w) -> length (flat_map f l) = (w * length l)%nat.
Proof. intros Hw. induction l as [|a l IH]; [cbn; lia|]. cbn [flat_map length]. rewrite app_length, Hw, IH. lia. Qed.
Definition jump_tail : list (option Z) := [None; None; Some 0; Some 8]
  ++ flat_map (fun _ => [None; None; None; Some 0; Some 8]) (repeat tt 16)
  ++ flat_map (fun _ => [None; None; None; None; Some 8]) (repeat tt 101).
Lemma jump_tail_length : length jump_tail = 589%nat.
Proof. vm_compute. reflexivity. Qed.
Lemma jump_tail_act j : (j < 17)%nat -> nth_error jump_tail (5 * j + 2) = Some (Some 0).
Proof. intros H. do 17 (destruct j as [|j]; [reflexivity|]). lia. Qed.
Lemma jump_tail_flag j : (j < 118)%nat -> nth_error jump_tail (5 * j + 3) = Some (Some 8).
Proof. intros H. do 118 (destruct j as [|j]; [vm_compute; reflexivity|]). lia. Qed.
Lemma jump_img_eq l : jump_img l = flat_map slot_a (firstn 17 l) ++ flat_map slot_b (firstn 101 (skipn 17 l)) ++ flat_map slot_c (skipn 118 l) ++ jump_tail.
Proof. reflexivity. Qed.
Lemma slot_at l j c p : nth_error l j = Some p -> (c < 5)%nat ->
  nth_error (jump_img l) (5 * j + c) = nth_error (if Nat.ltb j 17 then slot_a p else if Nat.ltb j 118 then slot_b p else slot_c p) c.
Proof.
  intros Hj Hc. rewrite jump_img_eq.
  assert (Hl : (j < length l)%nat) by (apply nth_error_Some; congruence).
  assert (LA : length (flat_map slot_a (firstn 17 l)) = (5 * Nat.min 17 (length l))%nat) by (rewrite (groups_length _ 5), firstn_length by reflexivity; reflexivity).
  assert (LB : length (flat_map slot_b (firstn 101 (skipn 17 l))) = (5 * Nat.min 101 (length l - 17))%nat)
    by (rewrite (groups_length _ 5), firstn_length, skipn_length by reflexivity; reflexivity).
  assert (LC : length (flat_map slot_c (skipn 118 l)) = (5 * (length l - 118))%nat)
    by (rewrite (groups_length _ 5), skipn_length by reflexivity; reflexivity).
  destruct (Nat.ltb_spec j 17) as [H1|H1]; [|destruct (Nat.ltb_spec j 118) as [H2|H2]].
  - rewrite nth_error_app1 by lia. apply nth_groups; [reflexivity| |exact Hc]. rewrite nth_error_firstn'. destruct (Nat.ltb_spec j 17); [exact Hj|lia].
  - rewrite nth_error_app2, nth_error_app1 by lia. rewrite LA. replace (5 * j + c - 5 * Nat.min 17 (length l))%nat with (5 * (j - 17) + c)%nat by lia.
    apply nth_groups; [reflexivity| |exact Hc]. rewrite nth_error_firstn'. destruct (Nat.ltb_spec (j - 17) 101); [|lia]. rewrite nth_error_skipn'. replace (17 + (j - 17))%nat with j by lia. exact Hj.
  - rewrite !nth_error_app2, nth_error_app1 by lia. rewrite LA, LB.
    replace (5 * j + c - 5 * Nat.min 17 (length l) - 5 * Nat.min 101 (length l - 17))%nat with (5 * (j - 118) + c)%nat by lia.
    apply nth_groups; [reflexivity| |exact Hc]. rewrite nth_error_skipn'. replace (118 + (j - 118))%nat with j by lia. exact Hj.
Qed.
Lemma tail_at l k : nth_error (jump_img l) (5 * length l + k) = nth_error jump_tail k.
Proof.
  rewrite jump_img_eq. rewrite !app_assoc, nth_error_app2.
  - rewrite !app_length, !(groups_length _ 5), !firstn_length, !skipn_length by reflexivity. f_equal. lia.
  - rewrite !app_length, !(groups_length _ 5), !firstn_length, !skipn_length by reflexivity. lia.
Qed.
(* GetDataSize is the size of what WritePayload writes *)
Theorem C21_jump_size l : 4 * Z.of_nat (length (jump_img l)) = 2356 + 20 * Z.of_nat (length l).
Proof.
  rewrite jump_img_eq, !app_length, !(groups_length _ 5), !firstn_length, !skipn_length by reflexivity. rewrite jump_tail_length. lia.
Qed.
(* Entry i of a buffer whose dwords start at EPD q, read as a trigger: no
   condition, no action, flag 8, next pointer = the i-th pointer; whatever the
   unwritten dwords hold. *)
Theorem C21_jump_buffer prot m0 q l :
  (forall d x, nth_error (jump_img l) d = Some (Some x) -> prot (idx (q + Z.of_nat d)) = true /\ get m0 (q + Z.of_nat d) = u32 x) ->
  forall i p, nth_error l i = Some p -> trig_matches prot m0 (jump_entry_epd q i) (mktrig [] [] (Imm p) (Imm 8)).
Proof.
  intros H i p Hi. unfold jump_entry_epd.
  assert (Hl : (i < length l)%nat) by (apply nth_error_Some; congruence).
  assert (H' : forall d a x, nth_error (jump_img l) d = Some (Some x) -> a = q + Z.of_nat d -> prot (idx a) = true /\ get m0 a = u32 x)
    by (intros d a x Hd ->; auto).
  assert (F0 : nth_error (jump_img l) (5 * i + 0) = Some (Some p)).
  { rewrite (slot_at l i 0 p Hi) by lia. destruct (Nat.ltb i 17), (Nat.ltb i 118); reflexivity. }
  assert (F4 : nth_error (jump_img l) (5 * i + 4) = Some (Some 0)).
  { rewrite (slot_at l i 4 p Hi) by lia. destruct (Nat.ltb i 17), (Nat.ltb i 118); reflexivity. }
  assert (FA : nth_error (jump_img l) (5 * (i + 17) + 2) = Some (Some 0)).
  { destruct (nth_error l (i + 17)) as [p'|] eqn:E.
    - rewrite (slot_at l (i + 17) 2 p' E) by lia. destruct (Nat.ltb_spec (i + 17) 17); [lia|]. destruct (Nat.ltb (i + 17) 118); reflexivity.
    - apply nth_error_None in E. replace (5 * (i + 17) + 2)%nat with (5 * length l + (5 * (i + 17 - length l) + 2))%nat by lia.
      rewrite tail_at. apply jump_tail_act. lia. }
  assert (FF : nth_error (jump_img l) (5 * (i + 118) + 3) = Some (Some 8)).
  { destruct (nth_error l (i + 118)) as [p'|] eqn:E.
    - rewrite (slot_at l (i + 118) 3 p' E) by lia. destruct (Nat.ltb_spec (i + 118) 17); [lia|]. destruct (Nat.ltb_spec (i + 118) 118); [lia|reflexivity].
    - apply nth_error_None in E. replace (5 * (i + 118) + 3)%nat with (5 * length l + (5 * (i + 118 - length l) + 3))%nat by lia.
      rewrite tail_at. apply jump_tail_flag. lia. }
  unfold trig_matches, raw_trig. cbn [t_conds t_acts t_next t_flags]. split; [|split; [|split]].
  - change (zseq 16) with (0 :: map Z.of_nat (seq 1 15)). cbn [map conds_match]. eexists. split; [reflexivity|].
    destruct (H' _ (q - 1 + 5 * Z.of_nat i + 2 + 5 * 0 + 3) _ F4) as [Q1 Q2]; [lia|]. split; [exact Q1|]. rewrite Q2. reflexivity.
  - change (zseq 64) with (0 :: map Z.of_nat (seq 1 63)). cbn [map acts_match]. eexists. split; [reflexivity|].
    destruct (H' _ (q - 1 + 5 * Z.of_nat i + 82 + 8 * 0 + 6) _ FA) as [Q1 Q2]; [lia|]. split; [exact Q1|]. rewrite Q2. reflexivity.
  - cbn [op_matches]. apply (H' _ _ _ F0). lia.
  - cbn [op_matches]. apply (H' _ _ _ FF). lia.
Qed.

(* ---- examples ---- *)
Definition ex_run (mask : Z) (nums : list Z) (vs : list Z) : option (list tgt) :=
  match case_keys mask nums with
  | None => None
  | Some keys =>
      let code := switch_code mask keys in
      Some (snd (fold_left (fun x v => let r := lrun 200 (code_prog 0 code) (table_of keys) v (start_of code, fst x) in (snd r, snd x ++ [fst r]))
              vs (init_state 0 code, [])))
  end.
(* two comparisons, a jump table, and a binary search; several executions each *)
Example ex_simple : ex_run 0xFF [7; 3] [3; 0x107; 5; 7; 3] = Some [L (Some 3); L (Some 7); L None; L (Some 7); L (Some 3)].
Proof. vm_compute. reflexivity. Qed.
Example ex_table : ex_run 0xFFFFFFFF [8; 9; 12; 13; 24] [13; 24; 29; 8; 40; 9; 12] =
  Some [L (Some 13); L (Some 24); L None; L (Some 8); L None; L (Some 9); L (Some 12)].
Proof. vm_compute. reflexivity. Qed.
Example ex_search : ex_run 0xFFFFFFFF [400000; 100; 0; 30000; 2000] [100; 400000; 99; 0; 30000; 2000; 500000; 2000] =
  Some [L (Some 100); L (Some 400000); L None; L (Some 0); L (Some 30000); L (Some 2000); L None; L (Some 2000)].
Proof. vm_compute. reflexivity. Qed.
Example ex_methods : has_restore [3; 7] = true /\ dense [8; 9; 12; 13; 24] = true /\ dense [0; 100; 2000; 30000; 400000] = false.
Proof. vm_compute. auto. Qed.

(* a placement that meets the hypotheses of C21_switch: triggers one after the
   other, then the jump table; the blocks of the cases somewhere behind *)
Definition ex_base : Z := 0x58A364 + 4 * 1000000.
Definition ex_jump : Z := 0x58A364 + 4 * 100000000.
Definition ex_place : place :=
  mkplace (fun n => ex_base + 2408 * Z.of_nat n) (fun c => match c with Some k => 0x50000000 + 4 * k | None => 0x40000000 end) ex_jump 9000 9001.
Definition ex_prog (e mask : Z) (keys : list Z) : prog := fun pc =>
  if pc <? ex_jump
  then option_map (mnode ex_place e (Z.to_nat ((pc - ex_base) / 2408))) (nth_error (switch_code mask keys) (Z.to_nat ((pc - ex_base) / 2408)))
  else option_map (mjump ex_place) (nth_error (table_of keys) (Z.to_nat ((pc - ex_jump) / 20))).
Definition ex_mem (mask : Z) (keys : list Z) (e v : Z) : mem := fun a =>
  if a =? e then v
  else if a =? 9000 then cell ex_place 1
  else if a =? 9001 then match nth_error (switch_code mask keys) 1 with Some nd => taddr ex_place (n_next nd) | None => 0 end
  else match nth_error (switch_code mask keys) (Z.to_nat ((a - 1000001) / 602)) with Some nd => taddr ex_place (n_next nd) | None => 0 end.
Lemma ex_cell n : cell ex_place n = 1000001 + 602 * Z.of_nat n.
Proof. unfold cell, ex_place, ex_base, epd_of. cbn [pA]. Z.div_mod_to_equations. lia. Qed.
Lemma ex_linked mask keys : Z.of_nat (length (switch_code mask keys)) <= 10000 -> Z.of_nat (length (table_of keys)) <= 10000000 ->
  linked (ex_prog 9002 mask keys) (fun _ => false) ex_place 9002 mask keys.
Proof.
  intros HB HT.
  assert (HI : forall n, (n < length (switch_code mask keys))%nat -> idx (cell ex_place n) = 1000001 + 602 * Z.of_nat n /\ plain (cell ex_place n)).
  { intros n Hn. rewrite ex_cell. split; [unfold idx; rewrite Z.mod_small by lia; reflexivity|].
    unfold plain, special. rewrite u32_small by lia. split; [lia|]. lia. }
  constructor.
  - intros n nd Hn. assert (Hl : (n < length (switch_code mask keys))%nat) by (apply nth_error_Some; congruence).
    unfold ex_prog. cbn [pA ex_place]. rewrite u32_small by (unfold ex_base; lia).
    destruct (Z.ltb_spec (ex_base + 2408 * Z.of_nat n) ex_jump) as [_|H]; [|unfold ex_base, ex_jump in H; lia].
    replace ((ex_base + 2408 * Z.of_nat n - ex_base) / 2408) with (Z.of_nat n) by (Z.div_mod_to_equations; lia).
    rewrite Nat2Z.id, Hn. reflexivity.
  - intros k t Hk. assert (Hl : (k < length (table_of keys))%nat) by (apply nth_error_Some; congruence).
    unfold ex_prog. cbn [pJ ex_place]. rewrite u32_small by (unfold ex_jump; lia).
    destruct (Z.ltb_spec (ex_jump + 20 * Z.of_nat k) ex_jump) as [H|_]; [lia|].
    replace ((ex_jump + 20 * Z.of_nat k - ex_jump) / 20) with (Z.of_nat k) by (Z.div_mod_to_equations; lia).
    rewrite Nat2Z.id, Hk. reflexivity.
  - intros n k Hn Hk E. rewrite (proj1 (HI n Hn)), (proj1 (HI k Hk)) in E. lia.
  - reflexivity.
  - intros n Hn. apply HI, Hn.
  - intros _. split; [split; [discriminate|reflexivity]|]. split; [split; [discriminate|reflexivity]|]. split; [discriminate|].
    intros n Hn. rewrite (proj1 (HI n Hn)). cbn [pRP pRV ex_place]. change (idx 9000) with 9000. change (idx 9001) with 9001. lia.
  - split; [split; [discriminate|reflexivity]|]. intros [[n [Hn E]]|[_ [E|E]]]; [|discriminate|discriminate].
    rewrite (proj1 (HI n Hn)) in E. change (idx 9002) with 9002 in E. lia.
Qed.
Lemma ex_loaded mask keys v : Z.of_nat (length (switch_code mask keys)) <= 10000 -> loaded ex_place mask keys (ex_mem mask keys 9002 v).
Proof.
  intros HB. split.
  - intros n nd Hn. assert (Hl : (n < length (switch_code mask keys))%nat) by (apply nth_error_Some; congruence).
    rewrite ex_cell. unfold get, idx, ex_mem. rewrite Z.mod_small by lia. f_equal.
    destruct (Z.eqb_spec (1000001 + 602 * Z.of_nat n) 9002); [lia|]. destruct (Z.eqb_spec (1000001 + 602 * Z.of_nat n) 9000); [lia|].
    destruct (Z.eqb_spec (1000001 + 602 * Z.of_nat n) 9001); [lia|].
    replace ((1000001 + 602 * Z.of_nat n - 1000001) / 602) with (Z.of_nat n) by (Z.div_mod_to_equations; lia).
    rewrite Nat2Z.id, Hn. reflexivity.
  - intros _ nd Hn. cbn [pRP pRV ex_place]. unfold get, ex_mem. change (idx 9000) with 9000. change (idx 9001) with 9001.
    cbn [Z.eqb Pos.eqb]. rewrite Hn. split; reflexivity.
Qed.
(* the binary search above, on the machine *)
Example ex_machine : exists m', steps (ex_prog 9002 0xFFFFFFFF [0; 100; 2000; 30000; 400000]) (fun _ => false)
  (u32 ex_base, ex_mem 0xFFFFFFFF [0; 100; 2000; 30000; 400000] 9002 30000) (u32 (0x50000000 + 4 * 30000), m').
Proof.
  assert (HB : Z.of_nat (length (switch_code 0xFFFFFFFF [0; 100; 2000; 30000; 400000])) <= 10000).
  { vm_compute. discriminate. }
  pose proof (C21_switch (ex_prog 9002 0xFFFFFFFF [0; 100; 2000; 30000; 400000]) (fun _ => false) ex_place 9002 0xFFFFFFFF
    [400000; 100; 0; 30000; 2000] [0; 100; 2000; 30000; 400000] [30000] (ex_mem 0xFFFFFFFF [0; 100; 2000; 30000; 400000] 9002 30000)
    ltac:(lia) eq_refl) as G.
  destruct (G (ex_linked _ _ HB ltac:(vm_compute; discriminate)) (ex_loaded _ _ _ HB) eq_refl) as (c & m' & Hc & R & _).
  exists m'. destruct c as [k|].
  - cbn in Hc. destruct Hc as [-> _]. exact R.
  - exfalso. apply (Hc 30000); [cbn; tauto|reflexivity].
Qed.

Print Assumptions C21_cases.
Print Assumptions C21_nodes.
Print Assumptions C21_switch.
Print Assumptions C21_nodes_cp.
Print Assumptions C21_const.
Print Assumptions C21_const_refuted.
Print Assumptions C21_merge.
Print Assumptions C21_jump_size.
Print Assumptions C21_jump_buffer.
