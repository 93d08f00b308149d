(** What the commands of the Montgomery templates compute on virtual registers. *)
From Coq Require Import ZArith List Bool Arith Lia.
From Verif Require Import Limbs LimbsFacts X86 X86Gen X86Sim.
Import ListNotations.
Open Scope Z_scope.

(** ** sums of limbs *)
Fixpoint es (f : nat -> Z) (k : nat) : Z := match k with O => 0 | S k => es f k + f k * B ^ Z.of_nat k end.
Lemma es_ext f g k : (forall j, (j < k)%nat -> f j = g j) -> es f k = es g k.
Proof. induction k as [|k IH]; intros H; cbn [es]; [reflexivity|]. rewrite IH, H by (intros; try apply H; lia). reflexivity. Qed.
Lemma es_bound f k : (forall j, (j < k)%nat -> 0 <= f j < B) -> 0 <= es f k < B ^ Z.of_nat k.
Proof.
  induction k as [|k IH]; intros H; cbn [es]; [cbn; lia|]. specialize (IH (fun j Hj => H j ltac:(lia))). specialize (H k ltac:(lia)). rewrite Bpow_S. pose proof (Bpow_pos k). nia.
Qed.
Lemma es_eval f k : es f k = eval (map f (seq 0 k)).
Proof.
  induction k as [|k IH]; [reflexivity|]. rewrite seq_S, map_app, eval_app, map_length, seq_length. cbn [es map eval Nat.add]. rewrite IH. ring.
Qed.
Lemma es_nth l k : length l = k -> es (fun j => nth j l 0) k = eval l.
Proof.
  intros E. rewrite es_eval. f_equal. apply nth_ext with 0 0; [rewrite map_length, seq_length; auto|]. intros j Hj. rewrite map_length, seq_length in Hj.
  rewrite (nth_indep _ 0 ((fun j => nth j l 0) 0%nat)) by (rewrite map_length, seq_length; exact Hj).
  rewrite (map_nth (fun j => nth j l 0) (seq 0 k) 0%nat j), seq_nth by exact Hj. reflexivity.
Qed.
Lemma es_upd_out v i x k o : (i < o \/ o + k <= i)%nat -> es (fun j => vupd v i x (o + j)) k = es (fun j => v (o + j)%nat) k.
Proof. intros H. apply es_ext. intros j Hj. unfold vupd. destruct (Nat.eqb_spec (o + j) i); [lia|reflexivity]. Qed.
Lemma es_upd_in v i x k o : (i < k)%nat -> es (fun j => vupd v (o + i) x (o + j)) k = es (fun j => v (o + j)%nat) k + (x - v (o + i)%nat) * B ^ Z.of_nat i.
Proof.
  induction k as [|k IH]; intros H; [lia|]. cbn [es]. unfold vupd at 2. destruct (Nat.eqb_spec (o + k) (o + i)) as [E|E].
  - assert (k = i) by lia. subst k. rewrite es_upd_out by lia. ring.
  - rewrite IH by lia. ring.
Qed.
Lemma carry s : 0 <= s < 2 * B -> s = s mod B + b2z (B <=? s) * B.
Proof.
  intros H. unfold b2z. destruct (Z.leb_spec B s) as [L|L].
  - replace (s mod B) with (s - B); [lia|]. apply Z.mod_unique with 1; lia.
  - rewrite Z.mod_small by lia. lia.
Qed.
Lemma b2z_range b : 0 <= b2z b <= 1. Proof. destruct b; cbn; lia. Qed.

Lemma bool_cases (b : bool) : b = true \/ b = false. Proof. destruct b; auto. Qed.

Lemma X86Sim_map {A C} (f : A -> C) l : map f l = flat_map (fun x => [f x]) l.
Proof. induction l as [|x l IH]; cbn; [reflexivity|]. rewrite IH. reflexivity. Qed.

Section Mont.
Variable lay : sym -> Z.
Variable okaddr : Z -> bool.
Notation vrun' := (vrun lay okaddr).
Definition st := ((nat -> Z) * mach * option label)%type.
Definition wp (cs : list cmd) (Q : (nat -> Z) -> mach -> Prop) (v : nat -> Z) (m : mach) : Prop :=
  exists v' m', vrun' cs (v, m, None) = Some (v', m', None) /\ Q v' m'.
Lemma wp_nil (Q : _ -> _ -> Prop) v m : Q v m -> wp [] Q v m.
Proof. intros H. exists v, m. split; [reflexivity|exact H]. Qed.
Lemma wp_app a b Q v m : wp a (wp b Q) v m -> wp (a ++ b) Q v m.
Proof. intros (v1 & m1 & E1 & v2 & m2 & E2 & H). exists v2, m2. split; [rewrite vrun_app, E1; exact E2|exact H]. Qed.
Lemma wp_mono cs (Q Q' : _ -> _ -> Prop) v m : (forall v m, Q v m -> Q' v m) -> wp cs Q v m -> wp cs Q' v m.
Proof. intros H (v1 & m1 & E1 & H1). exists v1, m1. split; auto. Qed.
Lemma wp_op i args cs Q v m v1 m1 : vexec lay okaddr i args v m = Some (v1, m1) -> wp cs Q v1 m1 -> wp (Op i args :: cs) Q v m.
Proof. intros E (v2 & m2 & E2 & H). exists v2, m2. split; [|exact H]. cbn [vrun vstep]. rewrite E. exact E2. Qed.
Lemma wp_seq (J : nat -> (nat -> Z) -> mach -> Prop) f k : forall s v m, (forall j v m, (s <= j < s + k)%nat -> J j v m -> wp (f j) (J (S j)) v m) ->
  J s v m -> wp (flat_map f (seq s k)) (J (s + k)%nat) v m.
Proof.
  induction k as [|k IH]; intros s v m H HJ; cbn [seq flat_map]; [rewrite Nat.add_0_r; apply wp_nil, HJ|].
  apply wp_app. eapply wp_mono; [|apply H; [lia|exact HJ]]. intros v1 m1 HJ1. replace (s + S k)%nat with (S s + k)%nat by lia. apply IH; [|exact HJ1]. intros j v' m' Hj. apply H. lia.
Qed.
Definition fcf (m : mach) c : mach := setf m {| cf := c; ovf := ovf (fl m); zf := zf (fl m) |}.
Definition fof (m : mach) c : mach := setf m {| cf := cf (fl m); ovf := c; zf := zf (fl m) |}.
Lemma wp_adcx a b cs Q v m : let s := v a + v b + b2z (cf (fl m)) in wp cs Q (vupd v a (s mod B)) (fcf m (B <=? s)) -> wp (Op Iadcx [AV a; AV b] :: cs) Q v m.
Proof. intros s. apply wp_op. reflexivity. Qed.
Lemma wp_adox a b cs Q v m : let s := v a + v b + b2z (ovf (fl m)) in wp cs Q (vupd v a (s mod B)) (fof m (B <=? s)) -> wp (Op Iadox [AV a; AV b] :: cs) Q v m.
Proof. intros s. apply wp_op. reflexivity. Qed.
Lemma setf_id m : setf m (fl m) = m. Proof. destruct m; reflexivity. Qed.
Lemma wp_mulx a l s y cs Q v m : vrd lay okaddr v m s = Some y -> wp cs Q (vupd (vupd v l (regs m RDX * y mod B)) a (regs m RDX * y / B)) m -> wp (Op Imulx [AV a; AV l; s] :: cs) Q v m.
Proof. intros E. apply wp_op. rewrite vexec_mulx, E, setf_id. reflexivity. Qed.
Lemma wp_mov a b cs Q v m : wp cs Q (vupd v a (v b)) m -> wp (Op Imov [AV a; AV b] :: cs) Q v m.
Proof. apply wp_op. rewrite vexec_mov. cbn [vrd]. rewrite setf_id. reflexivity. Qed.
Lemma wp_movm a s y cs Q v m : vrd lay okaddr v m s = Some y -> wp cs Q (vupd v a y) m -> wp (Op Imov [AV a; s] :: cs) Q v m.
Proof. intros E. apply wp_op. rewrite vexec_mov, E, setf_id. reflexivity. Qed.
Lemma setf_setr m r x : setf (setr m r x) (fl m) = setr m r x. Proof. destruct m; reflexivity. Qed.
Lemma wp_movr r s y cs Q v m : vrd lay okaddr v m s = Some y -> wp cs Q v (setr m r y) -> wp (Op Imov [AR r; s] :: cs) Q v m.
Proof. intros E. apply wp_op. unfold vexec. cbn [vrds vrd]. rewrite E. cbn [sem vwrs vwr fst snd]. rewrite setf_setr. reflexivity. Qed.
Lemma wp_mulxq a i cs Q v m : wp cs Q (vupd v a (regs m RDX * v i / B)) (setr m RDX (regs m RDX * v i mod B)) -> wp (Op Imulx [AV a; AR RDX; AV i] :: cs) Q v m.
Proof. apply wp_op. unfold vexec. cbn [vrds vrd sem vwrs vwr fst snd]. rewrite setf_setr. reflexivity. Qed.

(** ** the rows *)
Variable n : nat.
Variable opt : bool.
Variable q np : Z.
Variable ql : list Z.
Variable m0 : mach.   (* the machine when the rows start *)
Definition Env (m : mach) : Prop := (forall r, r <> RDX -> regs m r = regs m0 r) /\ mem m = mem m0.
Lemma Env_setf m f : Env m -> Env (setf m f). Proof. auto. Qed.
Lemma Env_rdx m x : Env m -> Env (setr m RDX x).
Proof. intros [H H']. split; [|exact H']. intros r Hr. cbn [setr regs]. rewrite rupd_neq by exact Hr. auto. Qed.
(** array operands *)
Definition array (b : nat -> arg) (l : list Z) : Prop := forall j v m, (j < n)%nat -> Env m -> vrd lay okaddr v m (b j) = Some (nth j l 0).
Definition vok (v : nat -> Z) : Prop := forall i, 0 <= v i < B.
Lemma vok_upd v i x : vok v -> 0 <= x < B -> vok (vupd v i x).
Proof. intros H Hx j. unfold vupd. destruct (Nat.eqb j i); auto. Qed.
Lemma modB x : 0 <= x mod B < B. Proof. apply Z.mod_pos_bound, B_pos. Qed.
(** number of limbs: of T before a row, and after adding *)
Definition nt : nat := if opt then n else S n.
Definition ev (v : nat -> Z) (k : nat) : Z := es (fun j => v (t + j)%nat) k.
Record Base (v : nat -> Z) (m : mach) : Prop := { b_ok : vok v; b_2 : v 2%nat = np; b_3 : v 3%nat = 0; b_env : Env m }.
Record Row (T : Z) (k : nat) (v : nat -> Z) (m : mach) : Prop := { w_base : Base v m; w_cf : cf (fl m) = false; w_of : ovf (fl m) = false; w_T : ev v k = T }.
Lemma nl_range l k j : limbs_ok k l -> 0 <= nth j l 0 < B.
Proof.
  intros [E H]. destruct (Nat.lt_ge_cases j k) as [L|L]; [|rewrite nth_overflow by lia; pose proof B_pos; lia].
  rewrite Forall_forall in H. apply H, nth_In. lia.
Qed.
Lemma mul_hi a b : 0 <= a < B -> 0 <= b < B -> 0 <= a * b / B < B.
Proof. intros Ha Hb. pose proof B_pos. split; [apply Z.div_pos; nia|]. apply Z.div_lt_upper_bound; nia. Qed.
Lemma ev_upd_out v i x k : (i < 4 \/ 4 + k <= i)%nat -> ev (vupd v i x) k = ev v k.
Proof. intros H. apply es_upd_out. exact H. Qed.
Lemma ev_upd_in v i x k : (i < k)%nat -> ev (vupd v (t + i) x) k = ev v k + (x - v (t + i)%nat) * B ^ Z.of_nat i.
Proof. intros H. apply es_upd_in. exact H. Qed.
Lemma ev_S v k : ev v (S k) = ev v k + v (t + k)%nat * B ^ Z.of_nat k. Proof. reflexivity. Qed.
Lemma ev_bound v k : vok v -> 0 <= ev v k < B ^ Z.of_nat k. Proof. intros H. apply es_bound. intros; apply H. Qed.
Lemma upd2 v i x : (i = 0 \/ i = 1 \/ 4 <= i)%nat -> vupd v i x 2%nat = v 2%nat /\ vupd v i x 3%nat = v 3%nat.
Proof. intros H. rewrite !vupd_neq by lia. auto. Qed.
Lemma Base_upd v m i x : (i = 0 \/ i = 1 \/ 4 <= i)%nat -> 0 <= x < B -> Base v m -> Base (vupd v i x) m.
Proof. intros H Hx [H1 H2 H3 H4]. destruct (upd2 v i x H) as [E2 E3]. constructor; [apply vok_upd; assumption|rewrite E2; assumption|rewrite E3; assumption|assumption]. Qed.
Lemma Base_fcf v m c : Base v m -> Base v (fcf m c). Proof. intros [H1 H2 H3 H4]. constructor; auto. Qed.
Lemma Base_fof v m c : Base v m -> Base v (fof m c). Proof. intros [H1 H2 H3 H4]. constructor; auto. Qed.
Lemma Base_rdx v m x : Base v m -> Base v (setr m RDX x). Proof. intros [H1 H2 H3 H4]. constructor; auto using Env_rdx. Qed.
Lemma fcf_cf m c : cf (fl (fcf m c)) = c. Proof. reflexivity. Qed.
Lemma fcf_of m c : ovf (fl (fcf m c)) = ovf (fl m). Proof. reflexivity. Qed.
Lemma fof_cf m c : cf (fl (fof m c)) = cf (fl m). Proof. reflexivity. Qed.
Lemma fof_of m c : ovf (fl (fof m c)) = c. Proof. reflexivity. Qed.
Lemma fcf_rdx m c : regs (fcf m c) RDX = regs m RDX. Proof. reflexivity. Qed.
Lemma fof_rdx m c : regs (fof m c) RDX = regs m RDX. Proof. reflexivity. Qed.
Definition bnth (l : list Z) (j : nat) := nth j l 0.
Lemma sum3 v a b c : vok v -> 0 <= v a + v b + b2z c < 2 * B.
Proof. intros H. pose proof (H a). pose proof (H b). pose proof (b2z_range c). lia. Qed.

(** *** the first row *)
Lemma mod2_lt j : (j mod 2 < 2)%nat. Proof. apply Nat.mod_upper_bound. lia. Qed.
Lemma mod2_01 j : (j mod 2 = 0 \/ j mod 2 = 1 \/ 4 <= j mod 2)%nat. Proof. pose proof (mod2_lt j). lia. Qed.
Lemma mod2_S j : ((S j) mod 2 <> j mod 2)%nat.
Proof. pose proof (Nat.div_mod (S j) 2). pose proof (Nat.div_mod j 2). pose proof (mod2_lt j). pose proof (mod2_lt (S j)). lia. Qed.
Definition step_c (s : Z) : Z := b2z (B <=? s).
Lemma le_B s : step_c s = 0 -> (B <=? s) = false. Proof. unfold step_c. destruct (B <=? s); [discriminate|reflexivity]. Qed.
Lemma b2z_false b : b2z b = 0 -> b = false. Proof. destruct b; [discriminate|reflexivity]. Qed.
(** one addition at limb [j] *)
Lemma ev_add v j k x s : (j < k)%nat -> s = v (t + j)%nat + x -> 0 <= s < 2 * B -> ev (vupd v (t + j) (s mod B)) k + b2z (B <=? s) * B ^ Z.of_nat (S j) = ev v k + x * B ^ Z.of_nat j.
Proof.
  intros Hj Es Hs. rewrite ev_upd_in by exact Hj. rewrite Bpow_S. pose proof (carry s Hs) as C. revert C. generalize (b2z (B <=? s)) (s mod B). intros c r C.
  replace (v (t + j)%nat) with (r + c * B - x) by lia. ring.
Qed.
Lemma nt_n : (n <= nt)%nat. Proof. unfold nt. destruct opt; lia. Qed.
Lemma clear_top T v m : Row T nt v m -> wp (clearTop n opt) (Row T (S nt)) v m.
Proof.
  intros [H1 H2 H3 H4]. unfold clearTop.
  assert (X : wp [Op Imov [AV (t + nt); AV 3]] (Row T (S nt)) v m).
  { apply wp_mov. apply wp_nil. rewrite (b_3 _ _ H1). constructor; [apply Base_upd; [right; right; unfold t; lia|pose proof B_pos; lia|exact H1]|exact H2|exact H3|].
    rewrite ev_S, vupd_eq, ev_upd_out by (unfold t; lia). rewrite H4. ring. }
  unfold nt in X at 1. destruct (bool_cases opt) as [Eo|Eo]; rewrite Eo in X |- *; [exact X|]. replace (t + n + 1)%nat with (t + S n)%nat by lia. exact X.
Qed.
Definition rs v j := ev v (S nt) - ev v j.
Lemma rs_upd v i x j : (i < t + j)%nat -> (j <= S nt)%nat -> rs (vupd v i x) j = rs v j.
Proof.
  intros H Hj. unfold rs. destruct (Nat.lt_ge_cases i t) as [L|L].
  - rewrite !ev_upd_out by (unfold t in *; lia). reflexivity.
  - replace i with (t + (i - t))%nat by lia. rewrite !ev_upd_in by lia. ring.
Qed.
Lemma rs_S v j : rs v j = v (t + j)%nat * B ^ Z.of_nat j + rs v (S j).
Proof. unfold rs. rewrite (ev_S v j). ring. Qed.
Hypothesis Hn : (1 <= n)%nat.
Lemma first_row first b bl a v m : limbs_ok n bl -> array b bl -> (forall v m, Env m -> regs m RDX = a -> vrd lay okaddr v m first = Some (nth 0 bl 0)) -> 0 <= a < B ->
  Base v m -> cf (fl m) = false -> ovf (fl m) = false -> regs m RDX = a ->
  wp (firstRow n opt first b) (Row (a * eval bl) (S nt)) v m.
Proof.
  intros Hbl Hb Hf Ha Hv Hcf Hof Hrdx. unfold firstRow. pose proof B_pos as BP.
  set (J := fun j v m => Base v m /\ regs m RDX = a /\ ovf (fl m) = false /\ ev v j + (v ((j - 1) mod 2)%nat + b2z (cf (fl m))) * B ^ Z.of_nat j = a * es (bnth bl) j).
  apply wp_app. eapply wp_mulx; [apply Hf; [apply Hv|exact Hrdx]|]. apply wp_nil.
  set (v1 := vupd (vupd v t (regs m RDX * nth 0 bl 0 mod B)) 0%nat (regs m RDX * nth 0 bl 0 / B)).
  pose proof (nl_range bl n 0 Hbl) as R0.
  assert (J1 : J 1%nat v1 m).
  { unfold J. split; [|split; [exact Hrdx|split; [exact Hof|]]].
    - unfold v1. rewrite Hrdx. apply Base_upd; [auto|apply mul_hi; assumption|]. apply Base_upd; [right; right; unfold t; lia|apply modB|exact Hv].
    - rewrite Hcf. cbn [ev es]. change (es (fun j => v1 (t + j)%nat) 0) with 0. unfold v1. rewrite Hrdx. cbn [Nat.sub Nat.modulo]. change ((1 - 1) mod 2)%nat with 0%nat. rewrite (vupd_eq _ 0%nat), (vupd_neq _ 0%nat), Nat.add_0_r, vupd_eq by (unfold t; lia).
      unfold bnth, b2z. cbn [Z.of_nat]. change (B ^ Z.of_nat 1) with B. change (B ^ 0) with 1. pose proof (Z.div_mod (a * nth 0 bl 0) B). lia. }
  apply wp_app. eapply wp_mono; [|apply (wp_seq J) with (s := 1%nat); [|exact J1]].
  - intros v2 m2. cbn [Nat.add]. replace (S (n - 1)) with n by lia. intros (H1 & H2 & H3 & H4). clear J1 v1.
    assert (X : wp [Op Imov [AV (t + n); AV 3]; Op Iadcx [AV (t + n); AV ((n - 1) mod 2)]] (Row (a * eval bl) (S n)) v2 m2).
    { apply wp_mov. apply wp_adcx. apply wp_nil. rewrite vupd_eq, (vupd_neq _ _ ((n - 1) mod 2)) by (pose proof (mod2_lt (n - 1)); unfold t; lia). rewrite (b_3 _ _ H1).
      set (s := 0 + v2 ((n - 1) mod 2)%nat + b2z (cf (fl m2))).
      assert (Hs : 0 <= s < 2 * B) by (unfold s; pose proof (b_ok _ _ H1 ((n - 1) mod 2)%nat); pose proof (b2z_range (cf (fl m2))); lia).
      assert (E : ev (vupd (vupd v2 (t + n) 0) (t + n) (s mod B)) (S n) + b2z (B <=? s) * B ^ Z.of_nat (S n) = a * eval bl).
      { rewrite ev_S, vupd_eq, !ev_upd_out by (unfold t; lia). rewrite <- (es_nth bl n) by apply Hbl. change (es (fun j => nth j bl 0) n) with (es (bnth bl) n). rewrite <- H4, Bpow_S. pose proof (carry s Hs) as C. unfold s in *. nia. }
      assert (Bo : Base (vupd (vupd v2 (t + n) 0) (t + n) (s mod B)) m2).
      { apply Base_upd; [right; right; unfold t; lia|apply modB|]. apply Base_upd; [right; right; unfold t; lia|lia|exact H1]. }
      pose proof (ev_bound _ (S n) (b_ok _ _ Bo)) as Eb. pose proof (eval_bound n bl Hbl) as Bb. pose proof (Bpow_S n) as BS.
      assert (Z0 : b2z (B <=? s) = 0). { pose proof (b2z_range (B <=? s)). rewrite BS in *. nia. }
      assert (Zb : (B <=? s) = false) by (destruct (B <=? s); [discriminate|reflexivity]).
      constructor; [apply Base_fcf, Bo|exact Zb|exact H3|rewrite <- E, Z0; ring]. }
    unfold nt. destruct (bool_cases opt) as [Eo|Eo]; rewrite Eo; [exact X|]. apply (wp_app [_; _] [_; _]). eapply wp_mono; [|exact X]. clear X J H1 H2 H3 H4. intros v3 m3 [H1 H2 H3 H4].
    apply wp_mov. apply wp_adcx. apply wp_nil. rewrite vupd_eq, (vupd_neq _ _ 3) by (unfold t; lia). rewrite (b_3 _ _ H1), H2. cbn [b2z].
    change (0 + 0 + 0) with 0. change (0 mod B) with 0. change (B <=? 0) with false.
    constructor; [|reflexivity|exact H3|].
    + apply Base_fcf. apply Base_upd; [right; right; unfold t; lia|lia|]. apply Base_upd; [right; right; unfold t; lia|lia|exact H1].
    + rewrite ev_S. replace (t + S n)%nat with (t + n + 1)%nat by lia. rewrite vupd_eq, !ev_upd_out by (unfold t; lia). rewrite H4. ring.
  - intros j v2 m2 Hj (H1 & H2 & H3 & H4). eapply wp_mulx; [apply Hb; [lia|apply H1]|]. apply wp_adcx. apply wp_nil. rewrite H2.
    pose proof (nl_range bl n j Hbl) as Rj. set (lo := a * nth j bl 0 mod B). set (hi := a * nth j bl 0 / B).
    assert (Ehl : a * nth j bl 0 = hi * B + lo) by (unfold hi, lo; pose proof (Z.div_mod (a * nth j bl 0) B); lia).
    assert (Hlo : 0 <= lo < B) by apply modB. assert (Hhi : 0 <= hi < B) by (apply mul_hi; assumption).
    pose proof (mod2_lt j) as L1. pose proof (mod2_lt (j - 1)) as L2. pose proof (mod2_S (j - 1)) as L3. replace (S (j - 1)) with j in L3 by lia.
    set (v3 := vupd (vupd v2 (t + j) lo) (j mod 2) hi).
    assert (B3 : Base v3 m2).
    { apply Base_upd; [apply mod2_01|exact Hhi|]. apply Base_upd; [right; right; unfold t; lia|exact Hlo|exact H1]. }
    assert (E3 : v3 (t + j)%nat = lo) by (unfold v3; rewrite vupd_neq by (unfold t; lia); apply vupd_eq).
    assert (E4 : v3 ((j - 1) mod 2)%nat = v2 ((j - 1) mod 2)%nat) by (unfold v3; rewrite !vupd_neq by (unfold t; lia); reflexivity).
    assert (E5 : v3 (j mod 2)%nat = hi) by apply vupd_eq.
    assert (E6 : ev v3 j = ev v2 j) by (unfold v3; rewrite !ev_upd_out by (unfold t; lia); reflexivity).
    rewrite E3, E4. set (s := lo + v2 ((j - 1) mod 2)%nat + b2z (cf (fl m2))).
    assert (Hs : 0 <= s < 2 * B) by (unfold s; pose proof (b_ok _ _ H1 ((j - 1) mod 2)%nat); pose proof (b2z_range (cf (fl m2))); lia).
    unfold J. split; [apply Base_fcf, Base_upd; [right; right; unfold t; lia|apply modB|exact B3]|]. split; [exact H2|]. split; [exact H3|].
    rewrite fcf_cf, ev_S, vupd_eq, ev_upd_out by (unfold t; lia). replace (S j - 1)%nat with j by lia. rewrite vupd_neq by (unfold t; lia). rewrite E5, E6.
    cbn [es]. rewrite Z.mul_add_distr_l, <- H4, Bpow_S. unfold bnth. pose proof (carry s Hs) as C. unfold s in *.
    transitivity (ev v2 j + ((lo + v2 ((j - 1) mod 2)%nat + b2z (cf (fl m2))) + hi * B) * B ^ Z.of_nat j); [|rewrite Z.mul_assoc, Ehl; ring].
    revert C. generalize (B <=? lo + v2 ((j - 1) mod 2)%nat + b2z (cf (fl m2))) ((lo + v2 ((j - 1) mod 2)%nat + b2z (cf (fl m2))) mod B). intros cc sm ->. ring.
Qed.

Lemma next_row b bl a T v m : limbs_ok n bl -> array b bl -> 0 <= a < B -> Row T nt v m -> regs m RDX = a -> T + a * eval bl < B ^ Z.of_nat (S nt) ->
  wp (nextRow n opt b) (Row (T + a * eval bl) (S nt)) v m.
Proof.
  intros Hbl Hb Ha Hr Hrdx Hlt. unfold nextRow. pose proof B_pos as BP. pose proof nt_n as NT.
  set (J := fun j v m => Base v m /\ regs m RDX = a /\ ev v (S nt) + b2z (cf (fl m)) * B ^ Z.of_nat j + b2z (ovf (fl m)) * B ^ Z.of_nat (S j) = T + a * es (bnth bl) j).
  apply wp_app.
  assert (X0 : wp (clearTop n opt) (J 0%nat) v m).
  { destruct Hr as [H1 H2 H3 H4].
    assert (X : wp [Op Imov [AV (t + nt); AV 3]] (J 0%nat) v m).
    { apply wp_mov. apply wp_nil. rewrite (b_3 _ _ H1). split; [apply Base_upd; [right; right; unfold t; lia|lia|exact H1]|]. split; [exact Hrdx|].
      rewrite ev_S, vupd_eq, ev_upd_out by (unfold t; lia). rewrite H2, H3, H4. cbn [b2z es]. ring. }
    unfold clearTop. unfold nt in X at 1. destruct (bool_cases opt) as [Eo|Eo]; rewrite Eo in X |- *; [exact X|]. replace (t + n + 1)%nat with (t + S n)%nat by lia. exact X. }
  eapply wp_mono; [|exact X0]. clear X0. intros v1 m1 J0. apply wp_app. eapply wp_mono; [|apply (wp_seq J) with (s := 0%nat); [|exact J0]].
  - intros v2 m2. cbn [Nat.add]. intros (H1 & H2 & H3). clear J0 v1 m1.
    assert (E0 : a * es (bnth bl) n = a * eval bl) by (rewrite <- (es_nth bl n) by apply Hbl; reflexivity). rewrite E0 in H3.
    (* the last additions of zero *)
    set (s1 := v2 (t + n)%nat + v2 3%nat + b2z (cf (fl m2))).
    assert (X1 : wp [Op Iadcx [AV (t + n); AV 3]] (fun v m => Base v m /\ ev v (S nt) + b2z (cf (fl m)) * B ^ Z.of_nat (S n) + b2z (ovf (fl m)) * B ^ Z.of_nat (S n) = T + a * eval bl) v2 m2).
    { apply wp_adcx. fold s1. apply wp_nil. split; [apply Base_fcf, Base_upd; [right; right; unfold t; lia|apply modB|exact H1]|]. rewrite fcf_cf, fcf_of.
      assert (A := ev_add v2 n (S nt) (b2z (cf (fl m2))) s1 ltac:(lia) ltac:(unfold s1; rewrite (b_3 _ _ H1); lia) (sum3 v2 _ _ _ (b_ok _ _ H1))). lia. }
    assert (Z0 : forall v m, Base v m -> ev v (S nt) + b2z (cf (fl m)) * B ^ Z.of_nat (S nt) + b2z (ovf (fl m)) * B ^ Z.of_nat (S nt) = T + a * eval bl -> Row (T + a * eval bl) (S nt) v m).
    { intros v3 m3 K1 K2. pose proof (ev_bound v3 (S nt) (b_ok _ _ K1)). pose proof (b2z_range (cf (fl m3))). pose proof (b2z_range (ovf (fl m3))).
      assert (b2z (cf (fl m3)) = 0) by nia. assert (b2z (ovf (fl m3)) = 0) by nia. constructor; [exact K1|apply b2z_false; assumption|apply b2z_false; assumption|]. rewrite <- K2. nia. }
    destruct (bool_cases opt) as [Eo|Eo].
    + rewrite Eo. assert (En : nt = n) by (unfold nt; rewrite Eo; reflexivity). eapply wp_mono; [|exact X1]. intros v3 m3 (K1 & K2). apply Z0; [exact K1|]. rewrite En in *. exact K2.
    + rewrite Eo. assert (En : nt = S n) by (unfold nt; rewrite Eo; reflexivity). apply (wp_app [_] [_; _]). eapply wp_mono; [|exact X1]. intros v3 m3 (K1 & K2).
      replace (t + n + 1)%nat with (t + S n)%nat by lia. apply wp_adcx. set (s2 := v3 (t + S n)%nat + v3 3%nat + b2z (cf (fl m3))).
      assert (A := ev_add v3 (S n) (S nt) (b2z (cf (fl m3))) s2 ltac:(lia) ltac:(unfold s2; rewrite (b_3 _ _ K1); lia) (sum3 v3 _ _ _ (b_ok _ _ K1))).
      set (v4 := vupd v3 (t + S n) (s2 mod B)) in *.
      assert (K4 : Base v4 (fcf m3 (B <=? s2))) by (apply Base_fcf, Base_upd; [right; right; unfold t; lia|apply modB|exact K1]).
      apply wp_adox. rewrite fcf_of. set (s3 := v4 (t + S n)%nat + v4 3%nat + b2z (ovf (fl m3))).
      assert (A' := ev_add v4 (S n) (S nt) (b2z (ovf (fl m3))) s3 ltac:(lia) ltac:(unfold s3; rewrite (b_3 _ _ K4); lia) (sum3 v4 _ _ _ (b_ok _ _ K4))).
      apply wp_nil. apply Z0; [apply Base_fof, Base_upd; [right; right; unfold t; lia|apply modB|exact K4]|]. rewrite fof_cf, fof_of, fcf_cf. rewrite En in *. lia.
  - intros j v2 m2 Hj (H1 & H2 & H3). eapply wp_mulx; [apply Hb; [lia|apply H1]|]. rewrite H2.
    pose proof (nl_range bl n j Hbl) as Rj. set (lo := a * nth j bl 0 mod B). set (hi := a * nth j bl 0 / B).
    assert (Ehl : a * nth j bl 0 = hi * B + lo) by (unfold hi, lo; pose proof (Z.div_mod (a * nth j bl 0) B); lia).
    assert (Hlo : 0 <= lo < B) by apply modB. assert (Hhi : 0 <= hi < B) by (apply mul_hi; assumption).
    set (v3 := vupd (vupd v2 0 lo) 1 hi).
    assert (B3 : Base v3 m2) by (apply Base_upd; [auto|exact Hhi|]; apply Base_upd; [auto|exact Hlo|exact H1]).
    assert (E3 : v3 0%nat = lo) by reflexivity. assert (E5 : v3 1%nat = hi) by reflexivity.
    assert (E6 : ev v3 (S nt) = ev v2 (S nt)) by (unfold v3; rewrite !ev_upd_out by (unfold t; lia); reflexivity).
    apply wp_adcx. set (s1 := v3 (t + j)%nat + v3 0%nat + b2z (cf (fl m2))).
    assert (A := ev_add v3 j (S nt) (lo + b2z (cf (fl m2))) s1 ltac:(lia) ltac:(unfold s1; rewrite E3; lia) (sum3 v3 _ _ _ (b_ok _ _ B3))).
    set (v4 := vupd v3 (t + j) (s1 mod B)) in *.
    assert (B4 : Base v4 (fcf m2 (B <=? s1))) by (apply Base_fcf, Base_upd; [right; right; unfold t; lia|apply modB|exact B3]).
    assert (E4 : v4 1%nat = hi) by (unfold v4; rewrite vupd_neq by (unfold t; lia); exact E5).
    apply wp_adox. rewrite fcf_of. replace (t + j + 1)%nat with (t + S j)%nat by lia. set (s2 := v4 (t + S j)%nat + v4 1%nat + b2z (ovf (fl m2))).
    assert (A' := ev_add v4 (S j) (S nt) (hi + b2z (ovf (fl m2))) s2 ltac:(lia) ltac:(unfold s2; rewrite E4; lia) (sum3 v4 _ _ _ (b_ok _ _ B4))).
    apply wp_nil. split; [apply Base_fof, Base_upd; [right; right; unfold t; lia|apply modB|exact B4]|]. split; [exact H2|]. rewrite fof_cf, fof_of, fcf_cf.
    cbn [es]. unfold bnth at 2. rewrite Z.mul_add_distr_l, Z.mul_assoc, Ehl. rewrite E6 in A.
    rewrite (Bpow_S j) in *. set (X := B ^ Z.of_nat j) in *.
    transitivity (ev v4 (S nt) + (hi + b2z (ovf (fl m2))) * (B * X) + b2z (B <=? s1) * (B * X)); [lia|].
    transitivity (ev v2 (S nt) + (lo + b2z (cf (fl m2))) * X + (hi + b2z (ovf (fl m2))) * (B * X)); [lia|].
    replace (T + (a * es (bnth bl) j + (hi * B + lo) * X)) with ((T + a * es (bnth bl) j) + (hi * B + lo) * X) by ring. rewrite <- H3. ring.
Qed.

(** *** the reduction of a row *)
Hypothesis Hql : limbs_ok n ql.
Hypothesis Hqe : eval ql = q.
Hypothesis Hq1 : 1 < q.
Hypothesis Hqn : q < B ^ Z.of_nat n.
Hypothesis Hopt : opt = true -> 2 * q < B ^ Z.of_nat n.
Hypothesis Hnp : 0 <= np < B.
Hypothesis Hnq : (q * np + 1) mod B = 0.
Hypothesis Hmq : array mq ql.
Lemma second U v m : Row U (S nt) v m -> U + (B - 1) * q < B ^ Z.of_nat (S nt) ->
  wp (secondLoop n opt) (fun v m => exists T mm, Row T nt v m /\ 0 <= mm < B /\ B * T = U + mm * q) v m.
Proof.
  intros [Hb0 Hcf Hof HU] Hlt. unfold secondLoop. pose proof B_pos as BP. pose proof nt_n as NT. pose proof (b_env _ _ Hb0) as He.
  pose proof (nl_range ql n 0 Hql) as R0.
  set (mm := np * v t mod B). assert (Hmm : 0 <= mm < B) by apply modB.
  set (J := fun j v m => Base v m /\ regs m RDX = mm /\
     B * ev v (j - 1) + (v (j mod 2)%nat + b2z (cf (fl m)) + b2z (ovf (fl m))) * B ^ Z.of_nat j + rs v j = U + mm * es (bnth ql) j).
  apply wp_app.
  assert (X0 : wp [Op Imov [AR RDX; AV 2]; Op Imulx [AV 0; AR RDX; AV t]; Op Imulx [AV 1; AV 0; AM (BSym Sq) 0]; Op Iadcx [AV 0; AV t]] (J 1%nat) v m).
  { apply wp_movr with (y := np); [cbn [vrd]; rewrite (b_2 _ _ Hb0); reflexivity|]. apply wp_mulxq. cbn [setr regs]. rewrite rupd_eq. fold mm.
    set (m1 := {| regs := rupd (rupd (regs m) RDX np) RDX mm; fl := fl m; mem := mem m |}).
    change (setr _ RDX mm) with m1.
    set (v1 := vupd v 0 (np * v t / B)).
    assert (B1 : Base v1 m1).
    { apply Base_upd; [auto|apply mul_hi; [exact Hnp|apply (b_ok _ _ Hb0)]|]. change m1 with (setr (setr m RDX np) RDX mm). apply Base_rdx, Base_rdx, Hb0. }
    assert (Rdx : regs m1 RDX = mm) by (cbn [m1 regs]; apply rupd_eq).
    apply wp_mulx with (y := nth 0 ql 0); [change (AM (BSym Sq) 0) with (mq 0); apply Hmq; [lia|apply B1]|]. rewrite Rdx.
    set (lo := mm * nth 0 ql 0 mod B). set (hi := mm * nth 0 ql 0 / B).
    assert (Ehl : mm * nth 0 ql 0 = hi * B + lo) by (unfold hi, lo; pose proof (Z.div_mod (mm * nth 0 ql 0) B); lia).
    assert (Hlo : 0 <= lo < B) by apply modB. assert (Hhi : 0 <= hi < B) by (apply mul_hi; assumption).
    set (v2 := vupd (vupd v1 0 lo) 1 hi).
    assert (B2 : Base v2 m1) by (apply Base_upd; [auto|exact Hhi|]; apply Base_upd; [auto|exact Hlo|exact B1]).
    assert (E2 : forall i, (4 <= i)%nat -> v2 i = v i) by (intros i Hi; unfold v2, v1; rewrite !vupd_neq by lia; reflexivity).
    apply wp_adcx. apply wp_nil. change (v2 0%nat) with lo. rewrite (E2 t) by (unfold t; lia). change (fl m1) with (fl m). rewrite Hcf. cbn [b2z]. rewrite Z.add_0_r.
    set (s := lo + v t).
    assert (Es : s mod B = 0).
    { unfold s, lo. rewrite Zplus_mod_idemp_l. unfold mm. rewrite Z.add_mod, Zmult_mod_idemp_l, <- Z.add_mod by lia.
      assert (Eq0 : q mod B = nth 0 ql 0 mod B). { rewrite <- Hqe. destruct ql as [|x l]; [destruct Hql as [HL _]; cbn in HL; lia|]. cbn [eval nth]. rewrite (Z.mul_comm B), Z.mod_add by lia. reflexivity. }
      replace (np * v t * nth 0 ql 0 + v t) with (nth 0 ql 0 * (np * v t) + v t) by ring. rewrite <- Z.add_mod_idemp_l, <- Zmult_mod_idemp_l, <- Eq0, Zmult_mod_idemp_l, Z.add_mod_idemp_l by lia.
      replace (q * (np * v t) + v t) with ((q * np + 1) * v t) by ring. rewrite <- Zmult_mod_idemp_l, Hnq. reflexivity. }
    rewrite Es. assert (C := carry s ltac:(unfold s; pose proof (b_ok _ _ Hb0 t); lia)). rewrite Es in C.
    split; [apply Base_fcf, Base_upd; [auto|lia|exact B2]|]. split; [exact Rdx|]. rewrite fcf_cf, fcf_of. change (fl m1) with (fl m). rewrite Hof. cbn [b2z].
    change (1 mod 2)%nat with 1%nat. change (vupd v2 0 0 1%nat) with hi. change (1 - 1)%nat with 0%nat. change (ev (vupd v2 0 0) 0) with 0.
    rewrite rs_upd by (unfold t; lia). cbn [es]. unfold bnth. cbn [Z.of_nat]. change (B ^ Z.of_nat 1) with B. change (B ^ 0) with 1.
    assert (Er : rs v2 1 = U - v t).
    { unfold v2, v1. rewrite !rs_upd by (unfold t; lia). unfold rs. rewrite HU. unfold ev. cbn [es]. rewrite Nat.add_0_r. cbn [Z.of_nat]. change (B ^ 0) with 1. lia. }
    rewrite Er. unfold s in *. lia. }
  eapply wp_mono; [|exact X0]. clear X0. intros v1 m1 J1. apply wp_app. eapply wp_mono; [|apply (wp_seq J) with (s := 1%nat); [|exact J1]].
  - intros v2 m2. replace (1 + (n - 1))%nat with n by lia. intros (H1 & H2 & H3). clear J1 v1 m1.
    assert (E0 : mm * es (bnth ql) n = mm * q) by (rewrite <- Hqe, <- (es_nth ql n) by apply Hql; reflexivity). rewrite E0 in H3. apply wp_app.
    set (u := v2 (n mod 2)%nat) in *.
    assert (X1 : wp [Op Imov [AV (t + n - 1); AV 3]; Op Iadcx [AV (t + n - 1); AV (n mod 2)]; Op Iadox [AV (t + n - 1); AV (t + n)]]
                   (fun v m => Base v m /\ B * ev v n + (b2z (cf (fl m)) + b2z (ovf (fl m))) * B ^ Z.of_nat (S n) + rs v (S n) = U + mm * q) v2 m2).
    { replace (t + n - 1)%nat with (t + (n - 1))%nat by lia. apply wp_mov. rewrite (b_3 _ _ H1). set (v3 := vupd v2 (t + (n - 1)) 0).
      assert (B3 : Base v3 m2) by (apply Base_upd; [right; right; unfold t; lia|lia|exact H1]).
      pose proof (mod2_lt n) as L1.
      assert (E3 : v3 (n mod 2)%nat = u) by (unfold v3, u; rewrite vupd_neq by (unfold t; lia); reflexivity).
      apply wp_adcx. set (s1 := v3 (t + (n - 1))%nat + v3 (n mod 2)%nat + b2z (cf (fl m2))).
      pose proof (sum3 v3 (t + (n - 1))%nat (n mod 2)%nat (cf (fl m2)) (b_ok _ _ B3)) as S1. fold s1 in S1.
      set (v4 := vupd v3 (t + (n - 1)) (s1 mod B)).
      assert (B4 : Base v4 (fcf m2 (B <=? s1))) by (apply Base_fcf, Base_upd; [right; right; unfold t; lia|apply modB|exact B3]).
      apply wp_adox. rewrite fcf_of. set (s2 := v4 (t + (n - 1))%nat + v4 (t + n)%nat + b2z (ovf (fl m2))).
      pose proof (sum3 v4 (t + (n - 1))%nat (t + n)%nat (ovf (fl m2)) (b_ok _ _ B4)) as S2. fold s2 in S2.
      apply wp_nil. split; [apply Base_fof, Base_upd; [right; right; unfold t; lia|apply modB|exact B4]|]. rewrite fof_cf, fof_of, fcf_cf.
      assert (Er : forall j, (n <= j <= S nt)%nat -> rs (vupd v4 (t + (n - 1)) (s2 mod B)) j = rs v2 j) by (intros j Hj; unfold v4, v3; rewrite !rs_upd by (unfold t; lia); reflexivity).
      rewrite Er by lia. rewrite (rs_S v2 n) in H3.
      assert (Ee : ev (vupd v4 (t + (n - 1)) (s2 mod B)) n = ev v2 (n - 1) + (s2 mod B) * B ^ Z.of_nat (n - 1)).
      { replace n with (S (n - 1)) at 2 by lia. rewrite ev_S, vupd_eq. unfold v4, v3. rewrite !ev_upd_out by (unfold t; lia). reflexivity. }
      rewrite Ee. assert (C1 := carry s1 S1). assert (C2 := carry s2 S2).
      assert (E4 : v4 (t + (n - 1))%nat = s1 mod B) by apply vupd_eq.
      assert (E5 : v4 (t + n)%nat = v2 (t + n)%nat) by (unfold v4, v3; rewrite !vupd_neq by lia; reflexivity).
      assert (E6 : v3 (t + (n - 1))%nat = 0) by apply vupd_eq.
      assert (D1 : s1 = u + b2z (cf (fl m2))) by (unfold s1; rewrite E6, E3; lia).
      assert (D2 : s2 = s1 mod B + v2 (t + n)%nat + b2z (ovf (fl m2))) by (unfold s2; rewrite E4, E5; reflexivity).
      assert (P1 : B ^ Z.of_nat n = B * B ^ Z.of_nat (n - 1)) by (rewrite <- Bpow_S; f_equal; lia). rewrite Bpow_S. rewrite P1 in *. set (X := B ^ Z.of_nat (n - 1)) in *.
      rewrite <- H3. clear -C1 C2 D1 D2. revert C1 C2 D1 D2. generalize (b2z (B <=? s1)) (b2z (B <=? s2)) (s1 mod B) (s2 mod B). intros c1 c2 r1 r2 C1 C2 D1 D2.
      replace r2 with (r1 + v2 (t + n)%nat + b2z (ovf (fl m2)) - c2 * B) by lia. replace r1 with (u + b2z (cf (fl m2)) - c1 * B) by lia. ring. }
    assert (Z0 : forall v m, Base v m -> B * ev v nt + (b2z (cf (fl m)) + b2z (ovf (fl m))) * B ^ Z.of_nat (S nt) = U + mm * q -> exists T mm0, Row T nt v m /\ 0 <= mm0 < B /\ B * T = U + mm0 * q).
    { intros v3 m3 K1 K2. pose proof (ev_bound v3 nt (b_ok _ _ K1)). pose proof (b2z_range (cf (fl m3))). pose proof (b2z_range (ovf (fl m3))).
      assert (mm * q <= (B - 1) * q) by (apply Z.mul_le_mono_nonneg_r; lia). assert (0 <= B * ev v3 nt) by (apply Z.mul_nonneg_nonneg; lia). pose proof (Bpow_pos (S nt)).
      assert (b2z (cf (fl m3)) + b2z (ovf (fl m3)) = 0) by nia.
      exists (ev v3 nt), mm. split; [constructor; [exact K1|apply b2z_false; lia|apply b2z_false; lia|reflexivity]|]. split; [exact Hmm|]. rewrite <- K2. nia. }
    eapply wp_mono; [|exact X1]. intros v3 m3 (K1 & K2). destruct (bool_cases opt) as [Eo|Eo]; rewrite Eo.
    + assert (En : nt = n) by (unfold nt; rewrite Eo; reflexivity). apply wp_nil. apply Z0; [exact K1|]. rewrite En. rewrite <- K2. unfold rs. rewrite En. ring.
    + assert (En : nt = S n) by (unfold nt; rewrite Eo; reflexivity). apply wp_mov. rewrite (b_3 _ _ K1). set (v4 := vupd v3 (t + n) 0).
      assert (B4 : Base v4 m3) by (apply Base_upd; [right; right; unfold t; lia|lia|exact K1]).
      apply wp_adcx. set (s1 := v4 (t + n)%nat + v4 3%nat + b2z (cf (fl m3))).
      assert (D1 : s1 = b2z (cf (fl m3))) by (unfold s1; rewrite (b_3 _ _ B4); unfold v4; rewrite vupd_eq; lia).
      pose proof (b2z_range (cf (fl m3))) as Rc. assert (M1 : s1 mod B = s1) by (apply Z.mod_small; rewrite D1; change B with 18446744073709551616; lia).
      assert (F1 : (B <=? s1) = false) by (apply Z.leb_gt; rewrite D1; change B with 18446744073709551616; lia). rewrite M1, F1, D1.
      set (v5 := vupd v4 (t + n) (b2z (cf (fl m3)))).
      assert (B5 : Base v5 (fcf m3 false)) by (apply Base_fcf, Base_upd; [right; right; unfold t; lia|change B with 18446744073709551616; lia|exact B4]).
      apply wp_adox. rewrite fcf_of. set (s2 := v5 (t + n)%nat + v5 (t + n + 1)%nat + b2z (ovf (fl m3))).
      pose proof (sum3 v5 (t + n)%nat (t + n + 1)%nat (ovf (fl m3)) (b_ok _ _ B5)) as S2. fold s2 in S2. assert (C2 := carry s2 S2).
      apply wp_nil. apply Z0; [apply Base_fof, Base_upd; [right; right; unfold t; lia|apply modB|exact B5]|]. rewrite fof_cf, fof_of, fcf_cf. cbn [b2z]. rewrite Z.add_0_l, En, <- K2.
      assert (D2 : s2 = b2z (cf (fl m3)) + v3 (t + S n)%nat + b2z (ovf (fl m3))).
      { unfold s2. replace (v5 (t + n)%nat) with (b2z (cf (fl m3))) by (symmetry; apply vupd_eq). replace (v5 (t + n + 1)%nat) with (v3 (t + S n)%nat); [reflexivity|]. unfold v5, v4. rewrite !vupd_neq by lia. f_equal. lia. }
      assert (Er : rs v3 (S n) = v3 (t + S n)%nat * B ^ Z.of_nat (S n)) by (rewrite rs_S; unfold rs; rewrite En; ring). rewrite Er.
      rewrite ev_S, vupd_eq. unfold v5, v4. rewrite !ev_upd_out by (unfold t; lia). rewrite (Bpow_S (S n)), (Bpow_S n). set (X := B ^ Z.of_nat n).
      clear -C2 D2. revert C2 D2. generalize (b2z (B <=? s2)) (s2 mod B). intros c2 r2 C2 D2. replace r2 with (b2z (cf (fl m3)) + v3 (t + S n)%nat + b2z (ovf (fl m3)) - c2 * B) by lia. ring.
  - intros j v2 m2 Hj (H1 & H2 & H3). replace (t + j - 1)%nat with (t + (j - 1))%nat by lia.
    eapply wp_mulx; [apply Hmq; [lia|apply H1]|]. rewrite H2.
    pose proof (nl_range ql n j Hql) as Rj. set (lo := mm * nth j ql 0 mod B). set (hi := mm * nth j ql 0 / B).
    assert (Ehl : mm * nth j ql 0 = hi * B + lo) by (unfold hi, lo; pose proof (Z.div_mod (mm * nth j ql 0) B); lia).
    assert (Hlo : 0 <= lo < B) by apply modB. assert (Hhi : 0 <= hi < B) by (apply mul_hi; assumption).
    pose proof (mod2_lt j) as L1. pose proof (mod2_lt (j + 1)) as L2. pose proof (mod2_S j) as L3. replace (S j) with (j + 1)%nat in L3 by lia.
    set (v3 := vupd (vupd v2 (t + (j - 1)) lo) ((j + 1) mod 2) hi).
    assert (B3 : Base v3 m2).
    { apply Base_upd; [apply mod2_01|exact Hhi|]. apply Base_upd; [right; right; unfold t; lia|exact Hlo|exact H1]. }
    assert (E3 : v3 (t + (j - 1))%nat = lo) by (unfold v3; rewrite vupd_neq by (unfold t; lia); apply vupd_eq).
    assert (E4 : v3 (j mod 2)%nat = v2 (j mod 2)%nat) by (unfold v3; rewrite !vupd_neq by (unfold t; lia); reflexivity).
    assert (E5 : v3 ((j + 1) mod 2)%nat = hi) by apply vupd_eq.
    apply wp_adcx. set (s1 := v3 (t + (j - 1))%nat + v3 (j mod 2)%nat + b2z (cf (fl m2))).
    pose proof (sum3 v3 (t + (j - 1))%nat (j mod 2)%nat (cf (fl m2)) (b_ok _ _ B3)) as S1. fold s1 in S1.
    set (v4 := vupd v3 (t + (j - 1)) (s1 mod B)).
    assert (B4 : Base v4 (fcf m2 (B <=? s1))) by (apply Base_fcf, Base_upd; [right; right; unfold t; lia|apply modB|exact B3]).
    apply wp_adox. rewrite fcf_of. set (s2 := v4 (t + (j - 1))%nat + v4 (t + j)%nat + b2z (ovf (fl m2))).
    pose proof (sum3 v4 (t + (j - 1))%nat (t + j)%nat (ovf (fl m2)) (b_ok _ _ B4)) as S2. fold s2 in S2.
    apply wp_nil. split; [apply Base_fof, Base_upd; [right; right; unfold t; lia|apply modB|exact B4]|]. split; [exact H2|]. rewrite fof_cf, fof_of, fcf_cf.
    assert (Er : rs (vupd v4 (t + (j - 1)) (s2 mod B)) (S j) = rs v2 (S j)) by (unfold v4, v3; rewrite !rs_upd by (unfold t; lia); reflexivity).
    rewrite Er. rewrite (rs_S v2 j) in H3.
    assert (Ee : ev (vupd v4 (t + (j - 1)) (s2 mod B)) (S j - 1) = ev v2 (j - 1) + (s2 mod B) * B ^ Z.of_nat (j - 1)).
    { replace (S j - 1)%nat with (S (j - 1)) by lia. rewrite ev_S, vupd_eq. unfold v4, v3. rewrite !ev_upd_out by (unfold t; lia). reflexivity. }
    rewrite Ee. assert (C1 := carry s1 S1). assert (C2 := carry s2 S2).
    assert (E6 : v4 (t + (j - 1))%nat = s1 mod B) by apply vupd_eq.
    assert (E7 : v4 (t + j)%nat = v2 (t + j)%nat) by (unfold v4, v3; rewrite !vupd_neq by (unfold t; lia); reflexivity).
    assert (E8 : vupd v4 (t + (j - 1)) (s2 mod B) (S j mod 2)%nat = hi).
    { replace (S j) with (j + 1)%nat by lia. unfold v4. rewrite !vupd_neq by (unfold t; lia). exact E5. }
    rewrite E8.
    assert (D1 : s1 = lo + v2 (j mod 2)%nat + b2z (cf (fl m2))) by (unfold s1; rewrite E3, E4; reflexivity).
    assert (D2 : s2 = s1 mod B + v2 (t + j)%nat + b2z (ovf (fl m2))) by (unfold s2; rewrite E6, E7; reflexivity).
    assert (P1 : B ^ Z.of_nat j = B * B ^ Z.of_nat (j - 1)) by (rewrite <- Bpow_S; f_equal; lia).
    cbn [es]. change (bnth ql j) with (nth j ql 0).
    replace (U + mm * (es (bnth ql) j + nth j ql 0 * B ^ Z.of_nat j)) with ((U + mm * es (bnth ql) j) + (mm * nth j ql 0) * B ^ Z.of_nat j) by ring. rewrite Ehl, <- H3. rewrite Bpow_S. rewrite P1 in *. set (X := B ^ Z.of_nat (j - 1)) in *.
    clear -C1 C2 D1 D2. revert C1 C2 D1 D2. generalize (b2z (B <=? s1)) (b2z (B <=? s2)) (s1 mod B) (s2 mod B). intros c1 c2 r1 r2 C1 C2 D1 D2.
    replace r2 with (r1 + v2 (t + j)%nat + b2z (ovf (fl m2)) - c2 * B) by lia. replace r1 with (lo + v2 (j mod 2)%nat + b2z (cf (fl m2)) - c1 * B) by lia. ring.
Qed.

(** ** all rows *)
Lemma rows upper (A : nat -> Z) v m :
  (forall v m, Base v m -> cf (fl m) = false -> ovf (fl m) = false -> wp (upper 0%nat) (fun v m => Row (A 1%nat) (S nt) v m /\ A 1%nat + (B - 1) * q < B ^ Z.of_nat (S nt)) v m) ->
  (forall i T K v m, (1 <= i < n)%nat -> Row T nt v m -> 0 <= K < B ^ Z.of_nat i -> B ^ Z.of_nat i * T = A i + K * q ->
     wp (upper i) (fun v m => exists U, Row U (S nt) v m /\ B ^ Z.of_nat i * U = A (S i) + K * q /\ U + (B - 1) * q < B ^ Z.of_nat (S nt)) v m) ->
  Base v m -> cf (fl m) = false -> ovf (fl m) = false ->
  wp (flat_map (fun i => upper i ++ secondLoop n opt) (seq 0 n)) (fun v m => exists T K, Row T nt v m /\ 0 <= K < B ^ Z.of_nat n /\ B ^ Z.of_nat n * T = A n + K * q) v m.
Proof.
  intros H0 H1 Hb Hc Ho.
  set (J := fun i v m => match i with O => Base v m /\ cf (fl m) = false /\ ovf (fl m) = false
     | S _ => exists T K, Row T nt v m /\ 0 <= K < B ^ Z.of_nat i /\ B ^ Z.of_nat i * T = A i + K * q end).
  eapply wp_mono; [|apply (wp_seq J) with (s := 0%nat)].
  - intros v1 m1. unfold J. cbn [Nat.add]. destruct n as [|k]; [lia|]. auto.
  - intros i v1 m1 Hi HJ. apply wp_app.
    assert (X : wp (upper i) (fun v m => exists U K, Row U (S nt) v m /\ 0 <= K < B ^ Z.of_nat i /\ B ^ Z.of_nat i * U = A (S i) + K * q /\ U + (B - 1) * q < B ^ Z.of_nat (S nt)) v1 m1).
    { destruct i as [|i].
      - destruct HJ as (K1 & K2 & K3). eapply wp_mono; [|apply (H0 _ _ K1 K2 K3)]. intros v2 m2 (R1 & R2). exists (A 1%nat), 0. split; [exact R1|]. split; [cbn; lia|]. split; [cbn [Z.of_nat]; change (B ^ 0) with 1; lia|exact R2].
      - destruct HJ as (T & K & R1 & R2 & R3). eapply wp_mono; [|apply (H1 (S i) T K v1 m1 ltac:(lia) R1 R2 R3)]. intros v2 m2 (U & Q1 & Q2 & Q3). exists U, K. auto. }
    eapply wp_mono; [|exact X]. intros v2 m2 (U & K & R1 & R2 & R3 & R4). eapply wp_mono; [|apply (second U v2 m2 R1 R4)].
    intros v3 m3 (T & mm & Q1 & Q2 & Q3). exists T, (K + mm * B ^ Z.of_nat i). split; [exact Q1|]. rewrite Bpow_S. split; [pose proof (Bpow_pos i); nia|].
    replace (B * B ^ Z.of_nat i * T) with (B ^ Z.of_nat i * (B * T)) by ring. rewrite Q3. replace (B ^ Z.of_nat i * (U + mm * q)) with (B ^ Z.of_nat i * U + mm * B ^ Z.of_nat i * q) by ring. rewrite R3. ring.
  - split; [exact Hb|]. split; assumption.
Qed.
Lemma Bpow_opt : B ^ Z.of_nat nt + (B - 1) * q < B ^ Z.of_nat (S nt).
Proof using Hn Hq1 Hqn Hopt.
  pose proof (Bpow_pos n) as P. unfold nt. destruct (bool_cases opt) as [E|E]; rewrite E; rewrite !Bpow_S; [specialize (Hopt E)|clear Hopt]; change B with 18446744073709551616 in *; lia.
Qed.
Lemma Row_bound T k v m : Row T k v m -> 0 <= T < B ^ Z.of_nat k.
Proof. intros [H1 _ _ H4]. rewrite <- H4. apply ev_bound, H1. Qed.
(** ** comparison, subtraction, store *)
Lemma vrun_skip_ops cs v m l : Forall (fun c => match c with Label _ => False | _ => True end) cs -> vrun' cs (v, m, Some l) = Some (v, m, Some l).
Proof. induction 1 as [|c cs H _ IH]; [reflexivity|]. cbn [vrun]. destruct c; try destruct H; exact IH. Qed.
Definition cmpCode (k : nat) := flat_map (fun i => [Op Icmp [AV (t + i); mq i]; Jump Cc lab_done; Jump Cnz lab_sq]) (rev (seq 0 k)).
Lemma cmpCode_ops k : Forall (fun c => match c with Label _ => False | _ => True end) (cmpCode k).
Proof. unfold cmpCode. induction (rev (seq 0 k)) as [|i l IH]; cbn; [constructor|]. repeat (constructor; [exact Logic.I|]). exact IH. Qed.
Lemma cmpCode_S k : cmpCode (S k) = [Op Icmp [AV (t + k); mq k]; Jump Cc lab_done; Jump Cnz lab_sq] ++ cmpCode k.
Proof. unfold cmpCode. rewrite seq_S, rev_app_distr. reflexivity. Qed.
Definition cmpRes (x y : Z) : option label := match x ?= y with Lt => Some lab_done | Gt => Some lab_sq | Eq => None end.
Lemma borrow s : - B <= s < B -> s = s mod B - b2z (s <? 0) * B.
Proof.
  intros H. unfold b2z. destruct (Z.ltb_spec s 0) as [L|L].
  - replace (s mod B) with (s + B); [lia|]. apply Z.mod_unique with (-1); lia.
  - rewrite Z.mod_small by lia. lia.
Qed.
Lemma mod_zero s : - B < s < B -> s mod B = 0 -> s = 0.
Proof. intros H E. pose proof (borrow s ltac:(lia)) as C. rewrite E in C. destruct (b2z_range (s <? 0)). unfold b2z in *. destruct (s <? 0); lia. Qed.
Lemma cmp_spec k : (k <= n)%nat -> forall v m, vok v -> Env m -> exists m', vrun' (cmpCode k) (v, m, None) = Some (v, m', cmpRes (ev v k) (es (bnth ql) k)) /\ Env m'.
Proof.
  induction k as [|k IH]; intros Hk v m Hv He; [exists m; split; [reflexivity|exact He]|].
  rewrite cmpCode_S, vrun_app. cbn [vrun vstep]. unfold vexec. cbn [vrds]. cbn [vrd]. fold (mq k).
  pose proof (Hmq k v m ltac:(lia) He) as Eq. unfold mq at 1. cbn [vrd] in Eq. unfold mq in Eq. rewrite Eq. fold (bnth ql k). set (x := v (t + k)%nat). set (y := bnth ql k).
  assert (Rx : 0 <= x < B) by apply Hv. assert (Ry : 0 <= y < B) by (apply (nl_range ql n), Hql).
  cbn [sem]. unfold subf. cbn [vwrs]. set (f := {| cf := _; ovf := _; zf := _ |}). cbn [vrun vstep holds_cond setf fl].
  assert (Ef : cf f = (x <? y)) by (cbn [f cf]; rewrite Z.sub_0_r; destruct (Z.ltb_spec (x - y) 0), (Z.ltb_spec x y); lia || reflexivity).
  assert (Ez : zf f = (x =? y)).
  { cbn [f zf]. rewrite Z.sub_0_r. destruct (Z.eqb_spec x y) as [->|D]; [rewrite Z.sub_diag; reflexivity|]. apply Z.eqb_neq. intros E. apply mod_zero in E; lia. }
  rewrite Ef. rewrite ev_S. cbn [es]. fold x. fold y. pose proof (ev_bound v k Hv) as B1. assert (B2 : 0 <= es (bnth ql) k < B ^ Z.of_nat k) by (apply es_bound; intros; apply (nl_range ql n), Hql).
  unfold cmpRes. destruct (Z.ltb_spec x y) as [L|L].
  - cbn [vstep]. rewrite (vrun_skip_ops _ _ _ _ (cmpCode_ops k)). exists (setf m f). split; [|apply Env_setf, He]. rewrite (proj2 (Z.compare_lt_iff _ _)); [reflexivity|nia].
  - cbn [vstep holds_cond setf fl]. rewrite Ez. destruct (Z.eqb_spec x y) as [E|D]; cbn [negb].
    + destruct (IH ltac:(lia) v (setf m f) Hv (Env_setf _ _ He)) as (m' & R1 & R2). exists m'. split; [|exact R2]. rewrite R1. unfold cmpRes. rewrite E.
      destruct (Z.compare_spec (ev v k) (es (bnth ql) k)), (Z.compare_spec (ev v k + y * B ^ Z.of_nat k) (es (bnth ql) k + y * B ^ Z.of_nat k)); try reflexivity; exfalso; lia.
    + rewrite (vrun_skip_ops _ _ _ _ (cmpCode_ops k)). exists (setf m f). split; [|apply Env_setf, He]. rewrite (proj2 (Z.compare_gt_iff _ _)); [reflexivity|nia].
Qed.
Lemma sub_spec v m : vok v -> Env m ->
  wp (map (fun i => Op (if Nat.eqb i 0 then Isub else Isbb) [AV (t + i); mq i]) (seq 0 n))
    (fun v' m' => vok v' /\ Env m' /\ exists c, ev v' n = ev v n - q + c * B ^ Z.of_nat n) v m.
Proof.
  intros Hv He. rewrite X86Sim_map.
  set (J := fun j v' m' => vok v' /\ Env m' /\ ev v' n = ev v n - es (bnth ql) j + (match j with O => 0 | _ => b2z (cf (fl m')) end) * B ^ Z.of_nat j).
  eapply wp_mono; [|apply (wp_seq J) with (s := 0%nat)].
  - intros v1 m1 (H1 & H2 & H3). split; [exact H1|]. split; [exact H2|]. cbn [Nat.add] in H3. rewrite <- Hqe, <- (es_nth ql n) by apply Hql. eexists. exact H3.
  - intros j v1 m1 Hj (H1 & H2 & H3). pose proof (Hmq j v1 m1 ltac:(lia) H2) as Eq. set (y := nth j ql 0) in *. assert (Ry : 0 <= y < B) by (apply (nl_range ql n), Hql). pose proof (H1 (t + j)%nat) as Rx.
    set (c := match j with O => 0 | _ => b2z (cf (fl m1)) end). assert (Rc : 0 <= c <= 1) by (unfold c; destruct j; [lia|apply b2z_range]).
    assert (E : exists f, vexec lay okaddr (if Nat.eqb j 0 then Isub else Isbb) [AV (t + j); mq j] v1 m1 = Some (vupd v1 (t + j) ((v1 (t + j)%nat - y - c) mod B), setf m1 f) /\ cf f = (v1 (t + j)%nat - y - c <? 0)).
    { unfold vexec. cbn [vrds]. rewrite Eq. unfold c. cbn [vrd]. destruct j as [|j]; cbn [Nat.eqb sem]; unfold subf; cbn [vwrs vwr fst snd]; eexists; (split; [reflexivity|reflexivity]). }
    destruct E as (f & E & Ef). eapply wp_op; [exact E|]. apply wp_nil. split; [apply vok_upd; [exact H1|apply modB]|]. split; [apply Env_setf, H2|].
    cbn [setf fl]. rewrite Ef, ev_upd_in by lia. cbn [es]. change (bnth ql j) with y. rewrite H3. fold c. rewrite Bpow_S.
    pose proof (borrow (v1 (t + j)%nat - y - c) ltac:(lia)) as Bo. revert Bo. generalize ((v1 (t + j)%nat - y - c) mod B) (b2z (v1 (t + j)%nat - y - c <? 0)). intros r d Bo.
    replace r with (v1 (t + j)%nat - y - c + d * B) by lia. ring.
  - split; [exact Hv|]. split; [exact He|]. cbn [es]. ring.
Qed.
Variable p : Z.
Hypothesis Hp0 : 0 <= p.
Hypothesis Hp8 : p mod 8 = 0.
Hypothesis HpB : p + 8 * Z.of_nat n <= B.
Hypothesis Hpd : regs m0 RDI = p.
Hypothesis Hpok : forall j, (j < n)%nat -> okaddr (p + 8 * Z.of_nat j) = true.
Definition stored (k : nat) (v : nat -> Z) (m : mach) : Prop :=
  (forall r, r <> RDX -> regs m r = regs m0 r) /\ (forall j, (j < k)%nat -> mem m (p + 8 * Z.of_nat j) = v (t + j)%nat) /\
  (forall x, (forall j, (j < k)%nat -> x <> p + 8 * Z.of_nat j) -> mem m x = mem m0 x).
Lemma store_spec v m : Env m -> wp (map (fun i => Op Imov [mrdi i; AV (t + i)]) (seq 0 n)) (fun v' m' => stored n v m') v m.
Proof.
  intros [He1 He2]. rewrite X86Sim_map.
  set (J := fun j v' m' => v' = v /\ stored j v m').
  eapply wp_mono; [|apply (wp_seq J) with (s := 0%nat)].
  - intros v1 m1 (_ & H). exact H.
  - intros j v1 m1 Hj (-> & H1 & H2 & H3).
    assert (Ea : addr lay m1 (BReg RDI) (Z.of_nat j * 8) = p + 8 * Z.of_nat j).
    { unfold addr. rewrite H1, Hpd by discriminate. rewrite Z.mod_small by lia. lia. }
    assert (E : vexec lay okaddr Imov [mrdi j; AV (t + j)] v m1 = Some (v, setf (setm m1 (p + 8 * Z.of_nat j) (v (t + j)%nat)) (fl m1))).
    { unfold vexec, mrdi. cbn [vrds vrd]. rewrite Ea, Hpok by lia. replace ((p + 8 * Z.of_nat j) mod 8) with 0; [|rewrite (Z.mul_comm 8), Z.mod_add by lia; auto]. cbn [Z.eqb andb sem vwrs vwr fst snd]. rewrite Ea. reflexivity. }
    eapply wp_op; [exact E|]. apply wp_nil. split; [reflexivity|]. split; [exact H1|]. cbn [setf setm mem]. split.
    + intros i Hi. destruct (Nat.eq_dec i j) as [->|D]; [apply mupd_eq|]. rewrite mupd_neq by lia. apply H2. lia.
    + intros x Hx. rewrite mupd_neq by (apply Hx; lia). apply H3. intros i Hi. apply Hx. lia.
  - split; [reflexivity|]. split; [exact He1|]. split; [intros j Hj; lia|]. intros x _. rewrite He2. reflexivity.
Qed.
Lemma tail_spec T v m : Row T nt v m -> 0 <= T < 2 * q ->
  wp (tailCode n opt) (fun _ m' => exists v', stored n v' m' /\ vok v' /\ ev v' n = if T <? q then T else T - q) v m.
Proof.
  intros [H1 H2 H3 H4] HT. pose proof (b_ok _ _ H1) as Hv. pose proof (b_env _ _ H1) as He. pose proof (ev_bound v n Hv) as Lb.
  assert (Eq : es (bnth ql) n = q) by (rewrite <- Hqe, <- (es_nth ql n) by apply Hql; reflexivity).
  assert (C : exists m' sk, vrun' ((if opt then [] else [Op Itest [AV (t + n); AV (t + n)]; Jump Cnz lab_sq]) ++ cmpCode n) (v, m, None) = Some (v, m', sk) /\ Env m' /\
     (T < q -> sk = Some lab_done) /\ (q <= T -> sk = None \/ sk = Some lab_sq)).
  { assert (Lo : ev v n = T -> forall m1, Env m1 -> exists m' sk, vrun' (cmpCode n) (v, m1, None) = Some (v, m', sk) /\ Env m' /\ (T < q -> sk = Some lab_done) /\ (q <= T -> sk = None \/ sk = Some lab_sq)).
    { intros ET m1 He1. destruct (cmp_spec n (le_n _) v m1 Hv He1) as (m' & R1 & R2). exists m', (cmpRes (ev v n) (es (bnth ql) n)). split; [exact R1|]. split; [exact R2|]. rewrite ET, Eq. unfold cmpRes.
      destruct (Z.compare_spec T q); split; intros; try lia; auto. }
    unfold nt in H4. destruct (bool_cases opt) as [Eo|Eo]; rewrite Eo in H4 |- *.
    - cbn [app]. apply Lo; [exact H4|exact He].
    - rewrite ev_S in H4. cbn [app vrun vstep]. unfold vexec. cbn [vrds vrd sem vwrs]. set (f := {| cf := _; ovf := _; zf := _ |}). cbn [vstep holds_cond setf fl]. change (zf f) with (Z.land (v (t + n)%nat) (v (t + n)%nat) =? 0). rewrite Z.land_diag.
      destruct (Z.eqb_spec (v (t + n)%nat) 0) as [E0|D0]; cbn [negb].
      + apply Lo; [rewrite <- H4, E0; ring|apply Env_setf, He].
      + rewrite (vrun_skip_ops _ _ _ _ (cmpCode_ops n)). exists (setf m f), (Some lab_sq). split; [reflexivity|]. split; [apply Env_setf, He|]. pose proof (Hv (t + n)%nat). pose proof (Bpow_pos n). split; [intros; nia|auto]. }
  destruct C as (m1 & sk & C1 & He1 & C2 & C3).
  assert (D : exists v2 m2, vrun' ([Label lab_sq] ++ map (fun i => Op (if Nat.eqb i 0 then Isub else Isbb) [AV (t + i); mq i]) (seq 0 n) ++ [Flush true; Label lab_done]) (v, m1, sk) = Some (v2, m2, None) /\
      vok v2 /\ Env m2 /\ ev v2 n = if T <? q then T else T - q).
  { rewrite vrun_app. destruct (Z.ltb_spec T q) as [L|L].
    - rewrite (C2 L). cbn [vrun vstep Nat.eqb lab_done lab_sq]. rewrite vrun_app, vrun_skip_ops; [|apply Forall_forall; intros c Hc; apply in_map_iff in Hc as (i & <- & _); exact Logic.I].
      cbn [vrun vstep Nat.eqb]. exists v, m1. split; [reflexivity|]. split; [exact Hv|]. split; [exact He1|]. unfold nt in H4. destruct (bool_cases opt) as [Eo|Eo]; rewrite Eo in H4; [exact H4|]. rewrite ev_S in H4. pose proof (Hv (t + n)%nat) as Hx. pose proof (Bpow_pos n) as P.
      assert (X0 : v (t + n)%nat = 0). { destruct (Z.eq_dec (v (t + n)%nat) 0) as [E|D]; [exact E|]. assert (1 * B ^ Z.of_nat n <= v (t + n)%nat * B ^ Z.of_nat n) by (apply Z.mul_le_mono_nonneg_r; lia). lia. }
      rewrite X0 in H4. lia.
    - assert (Es : vrun' [Label lab_sq] (v, m1, sk) = Some (v, m1, None)) by (destruct (C3 L) as [-> | ->]; reflexivity). rewrite Es, vrun_app.
      destruct (sub_spec v m1 Hv He1) as (v2 & m2 & R1 & R2 & R3 & c & R4). rewrite R1. cbn [vrun vstep]. exists v2, m2. split; [reflexivity|]. split; [exact R2|]. split; [exact R3|].
      pose proof (ev_bound v2 n R2) as Lb2. pose proof (Bpow_pos n) as P.
      assert (exists d, ev v2 n = T - q + d * B ^ Z.of_nat n) as [d Ed].
      { unfold nt in H4. destruct (bool_cases opt) as [Eo|Eo]; rewrite Eo in H4; [exists c; rewrite R4, H4; reflexivity|]. rewrite ev_S in H4. exists (c - v (t + n)%nat). rewrite R4, <- H4. ring. }
      assert (d = 0) by nia. subst d. rewrite Ed. ring. }
  destruct D as (v2 & m2 & D1 & D2 & D3 & D4). destruct (store_spec v2 m2 D3) as (v3 & m3 & S1 & S2).
  exists v3, m3. split; [|exists v2; auto]. unfold tailCode. fold (cmpCode n). rewrite vrun_app. cbn [vrun vstep]. rewrite app_assoc, vrun_app, C1.
  replace ([Label lab_sq] ++ map (fun i => Op (if Nat.eqb i 0 then Isub else Isbb) [AV (t + i); mq i]) (seq 0 n) ++ [Flush true; Label lab_done] ++ map (fun i => Op Imov [mrdi i; AV (t + i)]) (seq 0 n))
    with (([Label lab_sq] ++ map (fun i => Op (if Nat.eqb i 0 then Isub else Isbb) [AV (t + i); mq i]) (seq 0 n) ++ [Flush true; Label lab_done]) ++ map (fun i => Op Imov [mrdi i; AV (t + i)]) (seq 0 n)) by (rewrite <- !app_assoc; reflexivity).
  rewrite vrun_app, D1. exact S1.
Qed.
End Mont.
