(** The conversions toMontgomery, toNormal, toLongNormal and the negation, on the machine. *)
From Coq Require Import ZArith Znumtheory List Bool Arith Lia.
From Verif Require Import Limbs LimbsFacts Gen GenFacts Spec Raw RawFacts Fr FrSpec X86 X86Gen X86Sim X86Mont X86Call X86Routines X86Raw X86RawFacts X86RawFacts2 X86RawFacts3 X86Final X86T X86TWords X86TFacts X86THelp X86THelp2 X86THelp3 X86TSpec X86TInv.
Import ListNotations.
Open Scope Z_scope.

(** ** the first word *)
Definition isType (t : Z) : Prop := t = SHORT \/ t = SHORTMONTGOMERY \/ t = LONG \/ t = LONGMONTGOMERY.
Lemma W32_B : B = W32 * W32. Proof. reflexivity. Qed.
Lemma type_range t : isType t -> 0 <= t < W32.
Proof. intros [-> | [-> | [-> | ->]]]; unfold W32, SHORT, SHORTMONTGOMERY, LONG, LONGMONTGOMERY; lia. Qed.
Lemma word_range s t : isType t -> 0 <= word_of s t < B.
Proof. intros T. apply type_range in T. unfold word_of. pose proof (Z.mod_pos_bound s W32 ltac:(reflexivity)). rewrite W32_B. nia. Qed.
Lemma word_lo s t : word_of s t mod W32 = s mod W32.
Proof. unfold word_of. rewrite Z.mod_add by discriminate. apply Z.mod_mod. discriminate. Qed.
Lemma sx32_mod x : sx32 (x mod W32) = sx32 x.
Proof. unfold sx32. rewrite Z.mod_mod by discriminate. reflexivity. Qed.
Lemma sx32_int s : is_int32 s -> sx32 s = s.
Proof.
  intros [H1 H2]. unfold sx32. unfold W32. change (2 ^ 31) with 2147483648 in *. change (2 ^ 32) with 4294967296. destruct (Z_lt_le_dec s 0).
  - replace (s mod 4294967296) with (s + 4294967296) by (rewrite <- (Z.mod_add s 1), Z.mod_small by lia; lia). destruct (Z.ltb_spec (s + 4294967296) 2147483648); lia.
  - rewrite Z.mod_small by lia. destruct (Z.ltb_spec s 2147483648); lia.
Qed.
Lemma sx32_range x : is_int32 (sx32 x).
Proof.
  unfold is_int32, sx32. pose proof (Z.mod_pos_bound x W32 ltac:(reflexivity)) as H. unfold W32 in *. change (2 ^ 32) with 4294967296 in *. change (2 ^ 31) with 2147483648. destruct (Z.ltb_spec (x mod 4294967296) 2147483648); lia.
Qed.
Lemma sx32_back x : sx32 x mod W32 = x mod W32.
Proof. unfold sx32. destruct (_ <? _); [apply Z.mod_mod; discriminate|]. replace (x mod W32 - W32) with (x mod W32 + (-1) * W32) by lia. rewrite Z.mod_add by discriminate. apply Z.mod_mod. discriminate. Qed.
Lemma sx32_word s t : is_int32 s -> sx32 (word_of s t) = s.
Proof. intros H. rewrite <- sx32_mod, word_lo, sx32_mod. apply sx32_int, H. Qed.
Definition tlong (t : Z) : bool := 2 ^ 31 <=? t.
Definition tmont (t : Z) : bool := Z.testbit t 30.
Lemma word_63 s t : isType t -> Z.testbit (word_of s t) 63 = tlong t.
Proof.
  intros T. rewrite Z.testbit_odd, Z.shiftr_div_pow2 by lia. unfold word_of. pose proof (Z.mod_pos_bound s W32 ltac:(reflexivity)) as H. unfold W32 in *. set (x := s mod 2 ^ 32) in *. clearbody x. change (2 ^ 32) with 4294967296 in *.
  assert (E : forall c, 0 <= c < 2 -> forall r, 0 <= r < 2 ^ 63 -> (r + c * 2 ^ 63) / 2 ^ 63 = c) by (intros c Hc r Hr; rewrite Z.div_add, Z.div_small by lia; lia). change (2 ^ 63) with 9223372036854775808 in *.
  destruct T as [-> | [-> | [-> | ->]]]; unfold SHORT, SHORTMONTGOMERY, LONG, LONGMONTGOMERY in *.
  - replace (x + 0 * 4294967296) with (x + 0 * 9223372036854775808) by lia. rewrite E by lia. reflexivity.
  - replace (x + 1073741824 * 4294967296) with (x + 4611686018427387904 + 0 * 9223372036854775808) by lia. rewrite E by lia. reflexivity.
  - replace (x + 2147483648 * 4294967296) with (x + 1 * 9223372036854775808) by lia. rewrite E by lia. reflexivity.
  - replace (x + 3221225472 * 4294967296) with (x + 4611686018427387904 + 1 * 9223372036854775808) by lia. rewrite E by lia. reflexivity.
Qed.
Lemma word_62 s t : isType t -> Z.testbit (word_of s t) 62 = tmont t.
Proof.
  intros T. rewrite Z.testbit_odd, Z.shiftr_div_pow2 by lia. unfold word_of. pose proof (Z.mod_pos_bound s W32 ltac:(reflexivity)) as H. unfold W32 in *. set (x := s mod 2 ^ 32) in *. clearbody x. change (2 ^ 32) with 4294967296 in *.
  assert (E : forall c, 0 <= c < 4 -> forall r, 0 <= r < 2 ^ 62 -> (r + c * 2 ^ 62) / 2 ^ 62 = c) by (intros c Hc r Hr; rewrite Z.div_add, Z.div_small by lia; lia). change (2 ^ 62) with 4611686018427387904 in *.
  destruct T as [-> | [-> | [-> | ->]]]; unfold SHORT, SHORTMONTGOMERY, LONG, LONGMONTGOMERY in *.
  - replace (x + 0 * 4294967296) with (x + 0 * 4611686018427387904) by lia. rewrite E by lia. reflexivity.
  - replace (x + 1073741824 * 4294967296) with (x + 1 * 4611686018427387904) by lia. rewrite E by lia. reflexivity.
  - replace (x + 2147483648 * 4294967296) with (x + 2 * 4611686018427387904) by lia. rewrite E by lia. reflexivity.
  - replace (x + 3221225472 * 4294967296) with (x + 3 * 4611686018427387904) by lia. rewrite E by lia. reflexivity.
Qed.
Lemma denotes_type q n s t l v : denotes q n s t l v -> isType t.
Proof. intros (_ & _ & H). unfold isType. tauto. Qed.
(** the sign of a short *)
Lemma short_B s : is_int32 s -> s mod B = if s <? 0 then s + B else s.
Proof. intros [H1 H2]. assert (B = 2 ^ 64) by reflexivity. destruct (Z.ltb_spec s 0); [rewrite <- (Z.mod_add s 1), Z.mod_small by lia; lia|apply Z.mod_small; lia]. Qed.
Lemma scond_s s : is_int32 s -> scond_holds true (s mod B) 0 Cs = (s <? 0).
Proof.
  intros H. unfold scond_holds. rewrite Z.sub_0_r, Z.mod_mod by discriminate. rewrite (short_B s H). unfold sx64. destruct H as [H1 H2]. change (B / 2) with (2 ^ 63). assert (B = 2 ^ 64) by reflexivity.
  destruct (Z.ltb_spec s 0); [destruct (Z.ltb_spec (s + B) (2 ^ 63)); [lia|]; destruct (Z.ltb_spec (s + B - B) 0); lia|destruct (Z.ltb_spec s (2 ^ 63)); [|lia]; destruct (Z.ltb_spec s 0); lia].
Qed.
Lemma scond_ns s : is_int32 s -> scond_holds true (s mod B) 0 Cns = negb (s <? 0).
Proof. intros H. rewrite <- (scond_s s H). reflexivity. Qed.
Lemma neg_B s : is_int32 s -> s < 0 -> (- (s mod B)) mod B = - s.
Proof. intros H N. rewrite (short_B s H). destruct (Z.ltb_spec s 0); [|lia]. destruct H as [H1 H2]. assert (B = 2 ^ 64) by reflexivity. rewrite <- (Z.mod_add _ 1), Z.mod_small by lia. lia. Qed.
Lemma mod_B_W32 x : (x mod B) mod W32 = x mod W32.
Proof. symmetry. apply Znumtheory.Zmod_div_mod; [reflexivity|reflexivity|]. exists W32. reflexivity. Qed.
(** more instructions *)
Section More.
Variable lay : sym -> Z.
Variable ra : Z.
Lemma t_subi_any m d v code Q : (forall x f, 0 <= x < B -> tw lay ra code Q (setf (setr m d x) f, None)) -> tw lay ra (subi d v :: code) Q (m, None).
Proof.
  intros H. eapply tw_cons; [|apply (H ((regs m d - v - 0) mod B)), Z.mod_pos_bound; pose proof B_pos; lia]. unfold subi. cbn [tstep step]. unfold exec. cbn [encodable is_reg is_mem orb andb negb rds rd sem]. unfold subf. cbn [wrs wr]. reflexivity.
Qed.
Lemma t_setType m t p rest Q : In t [64; 128; 192] -> regs m RDI = p -> p mod 8 = 0 ->
  (forall x f, 0 <= x < B -> 0 <= t * 2 ^ 24 < B -> tw lay ra rest Q (setm (setf (setr (setr m R11 x) R11 (t * 2 ^ 24)) f) p (mem m p mod W32 + t * 2 ^ 24 * W32), None)) -> (0 <= regs m R11 < B) -> tw lay ra (setTypeDest t ++ rest) Q (m, None).
Proof.
  intros Ht E Ep H HR. unfold setTypeDest. cbn [app]. apply t_mov8. set (x := regs m R11 - regs m R11 mod 256 + t). assert (Tr : 64 <= t <= 192) by (cbn [In] in Ht; lia). apply t_shl32. intros f. cbn [setr regs]. rewrite rupd_eq.
  assert (E2 : x mod W32 * 2 ^ 24 mod W32 = t * 2 ^ 24).
  { rewrite Z.mul_mod_idemp_l by discriminate. unfold x. replace ((regs m R11 - regs m R11 mod 256 + t) * 2 ^ 24) with (t * 2 ^ 24 + (regs m R11 - regs m R11 mod 256) * 2 ^ 24) by ring.
    pose proof (Z.div_mod (regs m R11) 256 ltac:(lia)) as Dv. replace ((regs m R11 - regs m R11 mod 256) * 2 ^ 24) with (regs m R11 / 256 * W32) by (unfold W32; change (2 ^ 32) with (256 * 2 ^ 24); nia). rewrite Z.mod_add by discriminate. apply Z.mod_small. unfold W32. lia. }
  rewrite E2. apply t_st32hi; [cbn [setf setr regs]; rewrite !rupd_neq, E by discriminate; exact Ep|]. cbn [setf setr regs mem]. rewrite rupd_eq, !rupd_neq, E by discriminate. rewrite (Z.mod_small (t * 2 ^ 24)) by (unfold W32; lia). apply H; [|unfold B; lia].
  unfold x. apply byte0; [exact HR|lia].
Qed.
End More.
Ltac rg := cbn [regs setr setm setf mem fl]; unfold rupd; cbn [reg_eqb].
Ltac rgi H := cbn [regs setr setm setf mem fl] in H; unfold rupd in H; cbn [reg_eqb] in H.

(** what a conversion guarantees *)
Definition Cres (D : Z) (k : nat) (p : Z) (L : list Z) (m m' : mach) : Prop := at_addr m' p L /\ xframe D k p m m' /\ regs m' RDI = regs m RDI.

Section Op.
Variable q : Z.
Variable P : zq.
Hypothesis OK : zq_ok q P.
Notation n := (p_n64 P).
Notation opt := (p_opt P).
Notation sb := (stackBytes n opt).
Variable lay : sym -> Z.
Variable ra : Z.
Hypothesis Hra : 0 <= ra < B.
Variable m0 : mach.
Variable D : Z.
Hypothesis HD : 0 <= D.
Hypothesis Rdy : xready P lay D m0.
Notation sp0 := (regs m0 RSP).
Variable pr : Z.
Hypothesis Dst : xdest P lay D m0 pr.
Notation K := (S n).
Lemma Opr : pr + 8 * Z.of_nat K <= sp0 - D \/ sp0 + 8 <= pr. Proof. exact (xd_off _ _ _ _ _ Dst). Qed.
Lemma Dpr : forall s, lay s + 8 * Z.of_nat (length (data P s)) <= pr \/ pr + 8 * Z.of_nat K <= lay s. Proof. exact (xd_data _ _ _ _ _ Dst). Qed.
Lemma Bpr : K <> 0%nat -> 0 <= pr /\ pr mod 8 = 0 /\ pr + 8 * Z.of_nat K <= B. Proof. intros _. destruct Dst. auto. Qed.
Lemma N1 : (1 <= n)%nat. Proof. apply (zk_n _ _ OK). Qed.
Notation Inv := (Inv m0 D pr).
Notation cmul := (c_mul q P OK lay ra Hra m0 D Rdy pr K Opr Dpr Bpr).
Notation cmul1 := (c_mul1 q P OK lay ra Hra m0 D Rdy pr K Opr Dpr Bpr).
Notation csquare := (c_square q P OK lay ra Hra m0 D Rdy pr K Opr Dpr Bpr).
Notation cfrom := (c_from q P OK lay ra Hra m0 D Rdy pr K Opr Dpr Bpr).
Notation cneg := (c_neg q P OK lay ra Hra m0 D Rdy pr K Opr Dpr Bpr).
Notation ccopy := (c_copy P lay ra Hra m0 D Rdy pr K Opr Dpr Bpr).
Notation ccopyS2L := (c_copyS2L q P OK lay ra Hra m0 D Rdy pr K Opr Dpr Bpr).
(** [c] bytes are on the stack *)
Definition St (k : nat) (c di bp : Z) (m : mach) : Prop := Inv k m /\ regs m RSP = sp0 - c /\ regs m RDI = di /\ regs m RBP = bp.
Lemma st_range k c di bp m r : St k c di bp m -> 0 <= regs m r < B.
Proof. intros [(W & _) _]. apply W. Qed.
Lemma st_mrange k c di bp m x : St k c di bp m -> 0 <= mem m x < B.
Proof. intros [(W & _) _]. apply W. Qed.
Lemma spok_of c S : c mod 8 = 0 -> 0 <= c -> c + S <= D -> spok m0 D (sp0 - c) S.
Proof. intros H1 H2 H3. split; [|lia]. pose proof (xr_align _ _ _ _ Rdy) as A. rewrite Zminus_mod, A, H1. reflexivity. Qed.
Lemma sp_al c : c mod 8 = 0 -> (sp0 - c) mod 8 = 0.
Proof. intros H1. pose proof (xr_align _ _ _ _ Rdy) as A. rewrite Zminus_mod, A, H1. reflexivity. Qed.
Lemma pr_facts : 0 <= pr /\ pr mod 8 = 0 /\ pr + 16 <= B.
Proof. destruct Dst as [D1 D2 D3 D4 D5]. pose proof N1. split; [exact D1|]. split; [exact D2|lia]. Qed.
Lemma B8 : B mod 8 = 0. Proof. reflexivity. Qed.
Lemma sp0_top : sp0 + 8 <= B.
Proof using Rdy. pose proof (xr_words _ _ _ _ Rdy) as [W _]. pose proof (W RSP) as R. pose proof (xr_align _ _ _ _ Rdy) as A. pose proof (Z.div_mod sp0 8 ltac:(lia)). pose proof (Z.div_mod B 8 ltac:(lia)). pose proof B8. lia. Qed.
(** the head of the result is not touched by a routine writing its limbs *)
Lemma eff_head S m m' c : Eff (pr + 8) n S m m' -> regs m RSP = sp0 - c -> 0 <= c -> 0 <= S -> c + S <= D -> mem m' pr = mem m pr.
Proof. intros (_ & _ & M) E H1 H2 H3. apply M; [lia|]. rewrite E. pose proof Opr. pose proof N1. lia. Qed.
Lemma eff_slot d kd S m m' c x : Eff d kd S m m' -> regs m RSP = sp0 - c -> sp0 - c <= x < sp0 + 8 -> (pr <= d /\ d + 8 * Z.of_nat kd <= pr + 8 * Z.of_nat K) -> (1 <= kd)%nat -> c <= D -> mem m' x = mem m x.
Proof. intros (_ & _ & M) E H1 H2 H3 H4. pose proof Opr. apply M; [lia|]. rewrite E. lia. Qed.
Lemma dest_pr c : dest_ok m0 pr K (sp0 - c) (pr + 8) n.
Proof. destruct pr_facts as (F1 & F2 & F3). split; [lia|]. split; [apply al8p, F2|]. left. lia. Qed.
Lemma dest_full c : dest_ok m0 pr K (sp0 - c) pr K.
Proof. destruct pr_facts as (F1 & F2 & F3). split; [lia|]. split; [exact F2|]. left. lia. Qed.
(** the end of the routine *)
Lemma finish code m L : St K 0 pr (regs m0 RBP) m -> regs m0 RDI = pr -> at_addr m pr L -> tnolab l_ret code = true ->
  tw lay ra (TRet :: code) (fun s => snd s = Some l_ret /\ regs (fst s) RSP = sp0 /\ mem (fst s) sp0 = mem m0 sp0 /\ Cres D K pr L m0 (setr (fst s) RSP ((sp0 + 8) mod B))) (m, None).
Proof.
  intros ((W & M & R) & E1 & E2 & E3) Er A N. pose proof Opr. pose proof B_pos. apply t_ret; [exact N|]. cbn [fst snd]. split; [reflexivity|]. split; [lia|]. split; [apply M; lia|].
  split; [exact A|]. split; [|cbn [setr regs]; rewrite rupd_neq, E2, Er by discriminate; reflexivity]. split; [apply words_setr; [exact W|apply Z.mod_pos_bound; lia]|]. split; [exact M|]. split; [|cbn [setr regs]; apply rupd_eq].
  intros r Hr. cbn [setr regs]. destruct (reg_dec r RSP) as [->|Nr]; [exfalso; unfold callee_saved in Hr; cbn [In] in Hr; intuition discriminate|]. rewrite rupd_neq by exact Nr. destruct (reg_dec r RBP) as [->|Nb]; [exact E3|]. apply R. unfold callee_saved in Hr. cbn [In] in *. intuition congruence.
Qed.
Lemma t_finish (Q : list Z -> Prop) f code :
  tw lay ra code (fun s => snd s = Some l_ret /\ regs (fst s) RSP = sp0 /\ mem (fst s) sp0 = mem m0 sp0 /\ exists L, Q L /\ Cres D K pr L m0 (setr (fst s) RSP ((sp0 + 8) mod B))) (m0, None) -> f = tcall lay ra code ->
  exists m' L, f m0 = Some m' /\ Q L /\ Cres D K pr L m0 m'.
Proof. intros H ->. destruct (tcall_of lay ra code m0 (fun m' => exists L, Q L /\ Cres D K pr L m0 m') H) as (m' & E & L & H1 & H2). exists m', L. auto. Qed.
Lemma finish' (Q : list Z -> Prop) code m L : St K 0 pr (regs m0 RBP) m -> regs m0 RDI = pr -> at_addr m pr L -> tnolab l_ret code = true -> Q L ->
  tw lay ra (TRet :: code) (fun s => snd s = Some l_ret /\ regs (fst s) RSP = sp0 /\ mem (fst s) sp0 = mem m0 sp0 /\ exists L, Q L /\ Cres D K pr L m0 (setr (fst s) RSP ((sp0 + 8) mod B))) (m, None).
Proof. intros H1 H2 H3 H4 H5. eapply tw_mono; [|exact (finish code m L H1 H2 H3 H4)]. intros s (A1 & A2 & A3 & A4). split; [exact A1|]. split; [exact A2|]. split; [exact A3|]. exists L. auto. Qed.
(** *** calls writing the limbs of the result *)
Definition Post (c di bp : Z) (l : list Z) (m m' : mach) : Prop :=
  St K c di bp m' /\ at_addr m' di l /\ (di = pr + 8 -> mem m' pr = mem m pr) /\ (forall x, sp0 - c <= x < sp0 + 8 -> mem m' x = mem m x).
Lemma s_call f S k c di bp m l' code Q m' : St k c di bp m -> c mod 8 = 0 -> 0 <= c -> 8 <= S -> c + S <= D -> (di = pr + 8 /\ length l' = n \/ di = pr /\ length l' = K) -> f (pushed ra m) = Some m' -> done m0 D pr m K l' S m' ->
  (Post c di bp l' m m' -> tw lay ra code Q (m', None)) -> tw lay ra (Callf f :: code) Q (m, None).
Proof.
  intros (I1 & I2 & I3 & I4) C1 C2 C3 C4 Hdi E (EF & AT & IN) H. pose proof (xr_room _ _ _ _ Rdy) as Rm. pose proof sp0_top. eapply t_callf; [rewrite I2; apply sp_al, C1|rewrite I2; lia|exact E|]. apply H. clear H. rewrite I3 in *. pose proof EF as (W & R & M). pose proof N1.
  split; [split; [exact IN|]; split; [rewrite R by (right; right; reflexivity); exact I2|]; split; [rewrite R by (right; left; reflexivity); exact I3|rewrite R by (left; unfold callee_saved; cbn [In]; tauto); exact I4]|].
  split; [exact AT|]. split.
  - intros Ed. destruct Hdi as [[_ Hl]|[Hl _]]; [|lia]. rewrite Ed, Hl in EF. apply (eff_head S m m' c EF I2); lia.
  - intros x Hx. apply (eff_slot di (length l') S m m' c x EF I2 Hx); lia.
Qed.
Lemma sb_pos : 0 <= sb. Proof using. clear. unfold stackBytes. lia. Qed.
Section SCall.
Variables (k : nat) (c bp : Z) (m : mach) (code : list tinstr) (Q : X86RawFacts.st -> Prop).
Hypothesis Hk : (k <= K)%nat.
Hypothesis C1 : c mod 8 = 0.
Hypothesis C2 : 0 <= c.
Section L.
Hypothesis HS : St k c (pr + 8) bp m.
Lemma s_dest : dest_ok m0 pr K (regs m RSP) (regs m RDI) n.
Proof. destruct HS as (I1 & I2 & I3 & I4). rewrite I2, I3. apply dest_pr. Qed.
Lemma s_sp S : c + S <= D -> spok m0 D (regs m RSP) S.
Proof. destruct HS as (I1 & I2 & I3 & I4). rewrite I2. intros H. apply spok_of; assumption. Qed.
Ltac fin LL := eapply s_call; [exact HS|exact C1|exact C2| |eassumption|left; split; [reflexivity|apply LL]|eassumption|eassumption|]; [pose proof sb_pos; lia|intros HP; eauto].
Lemma s_mul a b : c + (8 + sb) <= D -> limbs_ok n a -> limbs_ok n b -> arr m (8 + sb) (regs m RSI) a -> arr m (8 + sb) (regs m RDX) b -> eval b < q ->
  (forall m' l, limbs_ok n l -> eval l < q -> (eval l * B ^ Z.of_nat n) mod q = (eval a * eval b) mod q -> Post c (pr + 8) bp l m m' -> tw lay ra code Q (m', None)) -> tw lay ra (Callf (f_rawMMul lay n opt) :: code) Q (m, None).
Proof.
  intros H1 H2 H3 H4 H5 H6 H. destruct (cmul k m Hk (proj1 HS) K ltac:(lia) a b) as (m' & l & E & L1 & L2 & L3 & DN); try assumption; [apply s_sp; lia|apply s_dest|]. fin L1.
Qed.
Lemma s_square a : c + (8 + sb) <= D -> limbs_ok n a -> arr m (8 + sb) (regs m RSI) a -> eval a < q ->
  (forall m' l, limbs_ok n l -> eval l < q -> (eval l * B ^ Z.of_nat n) mod q = (eval a * eval a) mod q -> Post c (pr + 8) bp l m m' -> tw lay ra code Q (m', None)) -> tw lay ra (Callf (f_rawMSquare lay n opt) :: code) Q (m, None).
Proof.
  intros H1 H2 H4 H6 H. destruct (csquare k m Hk (proj1 HS) K ltac:(lia) a) as (m' & l & E & L1 & L2 & L3 & DN); try assumption; [apply s_sp; lia|apply s_dest|]. fin L1.
Qed.
Lemma s_mul1 a : neededFor n opt <> 12%nat -> c + (8 + sb) <= D -> limbs_ok n a -> arr m (8 + sb) (regs m RSI) a -> eval a < q ->
  (forall m' l, limbs_ok n l -> eval l < q -> (eval l * B ^ Z.of_nat n) mod q = (regs m RDX * eval a) mod q -> Post c (pr + 8) bp l m m' -> tw lay ra code Q (m', None)) -> tw lay ra (Callf (f_rawMMul1 lay n opt) :: code) Q (m, None).
Proof.
  intros N12 H1 H2 H4 H6 H. destruct (cmul1 k m Hk (proj1 HS) K ltac:(lia) a) as (m' & l & E & L1 & L2 & L3 & DN); try assumption; [apply s_sp; lia|apply s_dest|]. fin L1.
Qed.
Lemma s_from a : neededFor n opt <> 12%nat -> n <> 7%nat -> c + (8 + sb) <= D -> limbs_ok n a -> arr m (8 + sb) (regs m RSI) a ->
  (forall m' l, limbs_ok n l -> eval l < q -> (eval l * B ^ Z.of_nat n) mod q = eval a mod q -> Post c (pr + 8) bp l m m' -> tw lay ra code Q (m', None)) -> tw lay ra (Callf (f_rawFromMontgomery lay n opt) :: code) Q (m, None).
Proof.
  intros N12 N7 H1 H2 H4 H. destruct (cfrom k m Hk (proj1 HS) K ltac:(lia) a) as (m' & l & E & L1 & L2 & L3 & DN); try assumption; [apply s_sp; lia|apply s_dest|]. fin L1.
Qed.
Lemma s_neg a : c + 8 <= D -> limbs_ok n a -> eval a < q -> arr m 8 (regs m RSI) a -> same_or_apart n (regs m RSI) (pr + 8) ->
  (forall m' l, limbs_ok n l -> eval l = (- eval a) mod q -> Post c (pr + 8) bp l m m' -> tw lay ra code Q (m', None)) -> tw lay ra (Callf (f_rawNeg lay n) :: code) Q (m, None).
Proof.
  intros H1 H2 H4 H6 H7 H. destruct (cneg k m Hk (proj1 HS) K ltac:(lia) (s_sp _ H1) a s_dest) as (m' & l & E & L1 & L2 & DN); try assumption; [destruct HS as (_ & _ & -> & _); assumption|]. fin L1.
Qed.
End L.
Section W.
Hypothesis HS : St k c pr bp m.
Lemma s_destW : dest_ok m0 pr K (regs m RSP) (regs m RDI) K.
Proof. destruct HS as (I1 & I2 & I3 & I4). rewrite I2, I3. apply dest_full. Qed.
Lemma s_spW S : c + S <= D -> spok m0 D (regs m RSP) S.
Proof. destruct HS as (I1 & I2 & I3 & I4). rewrite I2. intros H. apply spok_of; assumption. Qed.
Lemma s_copy L : c + 8 <= D -> limbs_ok K L -> arr m 8 (regs m RSI) L -> same_or_apart K (regs m RSI) pr ->
  (forall m', Post c pr bp L m m' -> tw lay ra code Q (m', None)) -> tw lay ra (Callf (f_copy lay n) :: code) Q (m, None).
Proof.
  intros H1 H2 H3 H4 H. destruct (ccopy k m Hk (proj1 HS) K ltac:(lia) (s_spW _ H1) L s_destW) as (m' & E & DN); try assumption; [destruct HS as (_ & _ & -> & _); assumption|].
  eapply s_call; [exact HS|exact C1|exact C2| |eassumption|right; split; [reflexivity|apply H2]|eassumption|eassumption|]; [lia|intros HP; eauto].
Qed.
Lemma s_copyS2L x : c + 8 <= D -> regs m RSI = x mod B -> - (B / 2) <= x < B / 2 -> - q <= x < q ->
  (forall m' l, limbs_ok n l -> eval l = x mod q -> Post c pr bp (word_of 0 LONG :: l) m m' -> tw lay ra code Q (m', None)) -> tw lay ra (Callf (f_rawCopyS2L lay ra n) :: code) Q (m, None).
Proof.
  intros H1 H2 H3 H4 H. destruct (ccopyS2L k m Hk (proj1 HS) K ltac:(lia) (s_spW _ H1) x s_destW) as (m' & l & E & L1 & L2 & DN); try assumption.
  eapply s_call; [exact HS|exact C1|exact C2| |eassumption|right; split; [reflexivity|]|eassumption|exact DN|]; [lia|cbn [length]; rewrite (proj1 L1); reflexivity|intros HP; eauto].
Qed.
End W.
End SCall.
(** *** Montgomery arithmetic *)
Notation R := (Rad n).
Lemma q_pos : 1 < q. Proof. apply (zk_gt1 _ _ OK). Qed.
Lemma mont_val l x : limbs_ok n l -> eval l < q -> (eval l * B ^ Z.of_nat n) mod q = (x * R) mod q -> eval l = x mod q.
Proof. intros L1 L2 E. rewrite <- (Rad_B P) in E. apply (Rad_cancel q P OK) in E. rewrite <- E, Z.mod_small; [reflexivity|]. pose proof (eval_bound n l L1). lia. Qed.
Lemma R2_fact : limbs_ok n (p_R2 P) /\ eval (p_R2 P) = (R * R) mod q /\ eval (p_R2 P) < q.
Proof. destruct (R2_ok q P OK) as [H1 H2]. rewrite (Rad_B P), H2. split; [exact H1|]. split; [reflexivity|]. apply Z.mod_pos_bound. pose proof q_pos. lia. Qed.
Lemma R3_fact : limbs_ok n (p_R3 P) /\ eval (p_R3 P) = (R * R * R) mod q /\ eval (p_R3 P) < q.
Proof. destruct (R3_ok q P OK) as [H1 H2]. rewrite (Rad_B P), H2. split; [exact H1|]. split; [reflexivity|]. apply Z.mod_pos_bound. pose proof q_pos. lia. Qed.
(** *** an operand *)
Section Elt.
Variables pa s t : Z.
Variable l : list Z.
Variable v : Z.
Hypothesis F : xfields n m0 pa s t l.
Hypothesis Hv : denotes q n s t l v.
Hypothesis Oa : xoff D m0 pa K.
Hypothesis Sa : pa = pr \/ xapart n pa pr.
Lemma e_int : is_int32 s. Proof. apply F. Qed.
Lemma e_ok : limbs_ok n l. Proof. apply F. Qed.
Lemma e_type : isType t. Proof. exact (denotes_type _ _ _ _ _ _ Hv). Qed.
Lemma e_len : length l = n. Proof. apply e_ok. Qed.
Lemma e_head : mem m0 pa = word_of s t. Proof. destruct F as (_ & _ & A). apply (at_head _ _ _ _ A). Qed.
Lemma e_ptr : 0 <= pa /\ pa mod 8 = 0 /\ pa + 16 <= B.
Proof. destruct F as (_ & _ & A1 & A2 & A3 & _). cbn [length] in A3. rewrite e_len in A3. pose proof N1. split; [exact A1|]. split; [exact A2|]. lia. Qed.
Lemma e_limbs k m : (k <= 1)%nat -> Inv k m -> at_addr m (pa + 8) l.
Proof.
  intros Hk HI. destruct F as (_ & _ & A). apply at_tail in A. apply (user_at m0 D pr K Opr Bpr k m _ _ HI A); unfold xoff, xapart in *; rewrite e_len; lia.
Qed.
Lemma e_arr k m S c : (k <= 1)%nat -> Inv k m -> regs m RSP = sp0 - c -> 0 <= c -> 0 <= S -> c + S <= D -> arr m S (pa + 8) l.
Proof. intros Hk HI E H1 H2 H3. split; [exact (e_limbs k m Hk HI)|]. unfold xoff in Oa. rewrite e_len, E. lia. Qed.
Lemma e_headk m : Inv 0 m -> mem m pa = word_of s t.
Proof. intros HI. destruct F as (_ & _ & A). apply (at_head _ _ _ l). apply (user_at m0 D pr K Opr Bpr 0 m _ _ HI A); unfold xoff, xapart in *; cbn [length]; rewrite ?e_len; lia. Qed.
Lemma e_whole m : Inv 0 m -> at_addr m pa (word_of s t :: l).
Proof. intros HI. destruct F as (_ & _ & A). apply (user_at m0 D pr K Opr Bpr 0 m _ _ HI A); unfold xoff, xapart in *; cbn [length]; rewrite ?e_len; lia. Qed.
Lemma e_wok : limbs_ok K (word_of s t :: l).
Proof. apply limbs_ok_cons; [apply word_range, e_type|exact e_ok]. Qed.
(** its value *)
Lemma v_range : 0 <= v < q. Proof. apply Hv. Qed.
Lemma v_short : tlong t = false -> v = s mod q.
Proof. destruct Hv as (_ & _ & [[-> [_ H]] | [[-> [_ [H _]]] | [[-> _] | [-> _]]]]); cbn; intros; try discriminate; exact H. Qed.
Lemma v_long : tlong t = true -> tmont t = false -> eval l = v.
Proof. destruct Hv as (_ & _ & [[-> _] | [[-> _] | [[-> H] | [-> _]]]]); cbn; intros; try discriminate; exact H. Qed.
Lemma v_mont : tmont t = true -> eval l = (v * R) mod q.
Proof. destruct Hv as (_ & _ & [[-> _] | [[-> [_ [_ H]]] | [[-> _] | [-> H]]]]); cbn; intros; try discriminate; exact H. Qed.
Lemma v_lq : tlong t || tmont t = true -> eval l < q.
Proof. intros H. pose proof v_range. destruct (tmont t) eqn:M; [rewrite v_mont by exact M; apply Z.mod_pos_bound; lia|]. rewrite orb_false_r in H. rewrite v_long by assumption. lia. Qed.
(** *** toMontgomery *)
Hypothesis Edi : regs m0 RDI = pr.
Hypothesis Esi : regs m0 RSI = pa.
Hypothesis HD1 : 8 + sb <= D.
Definition montRes (L : list Z) : Prop := exists s' t' l', L = word_of s' t' :: l' /\ is_int32 s' /\ denotes q n s' t' l' v /\ tmont t' = true /\ limbs_ok n l' /\ eval l' = (v * R) mod q.
Lemma inv_head k m x : (1 <= k)%nat -> Inv k m -> 0 <= x < B -> Inv k (setm m pr x).
Proof. intros Hk HI Hx. replace pr with (pr + 8 * Z.of_nat 0) at 2 by lia. apply (inv_dst m0 D pr K Bpr); assumption. Qed.
Lemma s_data k c di bp m sy S : St k c di bp m -> (k <= K)%nat -> c mod 8 = 0 -> 0 <= c -> 0 <= S -> c + S <= D -> arr m S (lay sy) (data P sy).
Proof. intros (I1 & I2 & I3 & I4) H1 H2 H3 H4 H5. apply (data_arr P lay m0 D Rdy pr K Opr Dpr Bpr k m sy S H1 I1); [rewrite I2; apply spok_of; assumption|exact H4]. Qed.
Lemma sym_range sy : data P sy <> [] -> 0 <= lay sy < B.
Proof. intros H. destruct (xr_data _ _ _ _ Rdy sy) as [(A1 & A2 & A3 & A4) _]. destruct (data P sy); [contradiction|]. cbn [length] in A3. lia. Qed.
Lemma lea_sym m sy : data P sy <> [] -> addr lay m (BSym sy) 0 = lay sy.
Proof. intros H. destruct (xr_data _ _ _ _ Rdy sy) as [(A1 & A2 & A3 & A4) _]. unfold addr. rewrite Z.add_0_r. apply Z.mod_small. destruct (data P sy); [contradiction|]. cbn [length] in A3. lia. Qed.
Lemma R2_data : data P SR2 <> []. Proof. cbn [data]. intros E. destruct R2_fact as ([H _] & _). rewrite E in H. pose proof N1. cbn in H. lia. Qed.
Lemma R3_data : data P SR3 <> []. Proof. cbn [data]. intros E. destruct R3_fact as ([H _] & _). rewrite E in H. pose proof N1. cbn in H. lia. Qed.
Ltac nin' := cbn [In]; let H := fresh in intros H; repeat destruct H as [H|H]; try discriminate H; contradiction H.
Ltac inv1 := first [assumption | apply inv_setf | apply inv_setr; [|try lia|nin'] | apply inv_head; [lia| |try lia] | apply (inv_stk m0 D pr K Opr Bpr); [|try lia|try lia] ].
Lemma st0 k : (k <= 1)%nat -> St k 0 pr (regs m0 RBP) m0.
Proof. intros _. split; [apply (inv_mono m0 D pr K Bpr 0 k m0); [lia|]; exact (inv0 P lay m0 D Rdy pr)|]. split; [lia|]. split; [exact Edi|reflexivity]. Qed.
Lemma head_word t' x : isType t' -> x mod W32 + t' / 2 ^ 24 * 2 ^ 24 * W32 = word_of (sx32 x) t'.
Proof. intros T. unfold word_of. rewrite sx32_back. f_equal. f_equal. destruct T as [-> | [-> | [-> | ->]]]; reflexivity. Qed.
Ltac inv := repeat inv1.
Ltac stt H := let H1 := fresh in let H2 := fresh in let H3 := fresh in let H4 := fresh in pose proof H as (H1 & H2 & H3 & H4); split; [inv|split; [rg; try lia|split; [rg; try lia|rg; try assumption]]].
Lemma t_tail (Q : list Z -> Prop) t' s' m code l2 : In t' [64; 128; 192] -> St K 0 pr (regs m0 RBP) m -> at_addr m (pr + 8) l2 -> mem m pr mod W32 = s' mod W32 -> tnolab l_ret code = true -> Q (word_of s' (t' * 2 ^ 24) :: l2) ->
  tw lay ra (setTypeDest t' ++ TRet :: code) (fun s => snd s = Some l_ret /\ regs (fst s) RSP = sp0 /\ mem (fst s) sp0 = mem m0 sp0 /\ exists L, Q L /\ Cres D K pr L m0 (setr (fst s) RSP ((sp0 + 8) mod B))) (m, None).
Proof.
  intros T ST AT Hm Hc HQ. pose proof pr_facts as (P1 & P2 & P3). apply (t_setType lay ra _ t' pr); [exact T|apply ST|exact P2| |apply (st_range _ _ _ _ _ _ ST)]. intros x f Hx Ht. pose proof (Z.mod_pos_bound (mem m pr) W32 ltac:(reflexivity)) as Hw.
  assert (T2 : 64 <= t' <= 192) by (cbn [In] in T; lia). assert (EB : B = W32 * W32) by reflexivity. assert (0 <= t' * 2 ^ 24 * W32 /\ t' * 2 ^ 24 * W32 + W32 <= B) by (rewrite EB; unfold W32 in *; lia).
  apply finish' with (L := word_of s' (t' * 2 ^ 24) :: l2); [|exact Edi| |exact Hc|exact HQ].
  - stt ST.
  - apply at_cons; [rg; rewrite mupd_eq, Hm; reflexivity|lia|exact P2|]. eapply at_ext; [|exact AT]. intros y Hy. rg. apply mupd_neq. lia.
Qed.
Lemma montRes_of t' l2 x : t' = LONGMONTGOMERY \/ t' = SHORTMONTGOMERY /\ v = s mod q -> limbs_ok n l2 -> eval l2 = (v * R) mod q -> x = word_of s t' :: l2 -> montRes x.
Proof.
  intros T L E ->. exists s, t', l2. split; [reflexivity|]. split; [exact e_int|]. split; [|split; [destruct T as [-> | [-> _]]; reflexivity|auto]]. split; [exact v_range|]. split; [exact L|]. pose proof e_int. destruct T as [-> | [-> Hs]]; [right; right; right; auto|right; left; auto].
Qed.
Lemma toMontgomery_call : neededFor n opt <> 12%nat -> exists m' L, f_toMontgomery lay ra n opt m0 = Some m' /\ montRes L /\ Cres D K pr L m0 m'.
Proof.
  intros N12. apply t_finish with (code := asm_toMontgomery lay n opt); [|reflexivity]. set (Q := fun s : X86RawFacts.st => _). unfold asm_toMontgomery. cbn [app]. pose proof e_ptr as (A1 & A2 & A3). pose proof pr_facts as (P1 & P2 & P3). pose proof e_int as IS. unfold is_int32 in IS. pose proof sb_pos as SB. pose proof (st0 0 ltac:(lia)) as ST0. pose proof (st0 1 ltac:(lia)) as ST1. pose proof (word_range s t e_type) as WR. pose proof q_pos as Q1. set (bp := regs m0 RBP) in *. destruct R2_fact as (RA & RB & RC). pose proof (sym_range SR2 R2_data) as RR.
  apply (t_ld lay ra _ _ _ _ pa); [rewrite Esi, Z.add_0_r; apply Z.mod_small; lia|exact A2|]. rewrite e_head.
  apply t_btc; rg; rewrite word_62 by exact e_type.
  { intros f T. eapply t_after; [reflexivity|]. assert (ST : St 0 0 pr bp (setf (setr m0 RAX (word_of s t)) f)) by (stt ST0).
    eapply (s_copy 0 0 bp); [lia|reflexivity|lia|exact ST|lia|exact e_wok| |rg; rewrite Esi; unfold same_or_apart, apart, xapart in *; lia|].
    - rg. rewrite Esi. split; [apply e_whole, ST|]. cbn [length]. rewrite e_len. rg. unfold xoff in Oa. lia.
    - intros m' (ST' & AT & _ & _). apply finish' with (L := word_of s t :: l); [exact ST'|exact Edi|exact AT|reflexivity|]. exists s, t, l. repeat (split; [first [reflexivity|exact e_int|exact Hv|exact T|exact e_ok]|]). apply v_mont, T. }
  intros f T. apply t_btc; rg; rewrite word_63 by exact e_type.
  { intros f1 T1. eapply t_after; [reflexivity|]. apply (t_st lay ra _ _ _ _ pr); [rg; rewrite Edi, Z.add_0_r; apply Z.mod_small; lia|exact P2|]. rg.
    apply t_addi; [rg; rewrite Edi; lia|]. intros f2. rg. rewrite Edi. apply t_addi; [rg; rewrite Esi; lia|]. intros f3. rg. rewrite Esi. eapply t_lea; [apply lea_sym, R2_data|].
    set (m1 := setr _ RDX _). assert (ST : St 1 0 (pr + 8) bp m1) by (unfold m1; stt ST1).
    eapply (s_mul 1 0 bp) with (a := l) (b := p_R2 P); [pose proof N1; lia|reflexivity|lia|exact ST|lia|exact e_ok|exact RA| | |exact RC|].
    - apply (e_arr 1 m1 (8 + sb) 0); [lia|apply ST|apply ST|lia|lia|lia].
    - apply (s_data 1 0 (pr + 8) bp m1 SR2 (8 + sb) ST); [pose proof N1; lia|reflexivity|lia|lia|lia].
    - intros m2 l2 L1 L2 L3 (ST2 & AT & HH & _). specialize (HH eq_refl). apply t_subi_any. intros x f4 Hx. apply t_subi; [rg; destruct ST2 as (_ & _ & -> & _); lia|]. intros f5. rg. replace (regs m2 RDI) with (pr + 8) by (symmetry; apply ST2).
      apply (t_tail montRes 192 s) with (l2 := l2); [cbn [In]; tauto|stt ST2|eapply at_ext; [|exact AT]; intros; reflexivity|rg; rewrite HH; unfold m1; rg; rewrite mupd_eq; apply word_lo|reflexivity|].
      apply (montRes_of LONGMONTGOMERY l2); [left; reflexivity|exact L1| |reflexivity]. apply mont_val; [exact L1|exact L2|]. rewrite L3, (v_long T1 T), RB, Z.mul_mod_idemp_r by lia. f_equal. ring. }
  intros f1 T1. apply t_movsx. rg. rewrite sx32_word by exact e_int. pose proof (short_B s e_int) as ES. pose proof (v_short T1) as EV. assert (BB : B = 2 ^ 64) by reflexivity. assert (RS : 0 <= s mod B < B) by (apply Z.mod_pos_bound; lia).
  apply (t_st lay ra _ _ _ _ pr); [rg; rewrite Edi, Z.add_0_r; apply Z.mod_small; lia|exact P2|]. rg. apply t_addi; [rg; rewrite Edi; lia|]. intros f2. rg. rewrite Edi. eapply t_lea; [apply lea_sym, R2_data|].
  eapply t_cmpj; [reflexivity|reflexivity| |]; rg; rewrite (scond_s s e_int); intros f3 Hs.
  - assert (s < 0) by lia. eapply t_after; [reflexivity|]. apply t_neg64. intros f4. rg. rewrite neg_B by (try exact e_int; lia). set (m1 := setf _ f4). assert (ST : St 1 0 (pr + 8) bp m1) by (unfold m1; stt ST1).
    eapply (s_mul1 1 0 bp) with (a := p_R2 P); [pose proof N1; lia|reflexivity|lia|exact ST|exact N12|lia|exact RA| |exact RC|].
    + apply (s_data 1 0 (pr + 8) bp m1 SR2 (8 + sb) ST); [pose proof N1; lia|reflexivity|lia|lia|lia].
    + intros m2 l2 L1 L2 L3 (ST2 & AT & HH & _). specialize (HH eq_refl). unfold m1 in L3; rgi L3. apply t_mov. rewrite (proj1 (proj2 (proj2 ST2))). assert (ST2' : St K 0 (pr + 8) bp (setr m2 RSI (pr + 8))) by (stt ST2).
      eapply (s_neg K 0 bp) with (a := l2); [lia|reflexivity|lia|exact ST2'|lia|exact L1|exact L2| |left; reflexivity|].
      * split; [rg; eapply at_ext; [|exact AT]; intros; reflexivity|]. rg. rewrite (proj1 L1). destruct ST2 as (_ & -> & _). pose proof Opr. lia.
      * intros m3 l3 L4 L5 (ST3 & AT3 & HH3 & _). specialize (HH3 eq_refl). apply t_subi; [destruct ST3 as (_ & _ & -> & _); lia|]. intros f5. rg. replace (regs m3 RDI) with (pr + 8) by (symmetry; apply ST3).
        apply (t_tail montRes 64 s) with (l2 := l3); [cbn [In]; tauto|stt ST3|eapply at_ext; [|exact AT3]; intros; reflexivity|rg; rewrite HH3; rg; rewrite HH; unfold m1; rg; rewrite mupd_eq; apply mod_B_W32|reflexivity|].
        apply (montRes_of SHORTMONTGOMERY l3); [right; split; [reflexivity|exact EV]|exact L4| |reflexivity]. rewrite L5, EV, Z.mul_mod_idemp_l by lia. replace (s * R) with (- (- s * R)) by ring.
        rewrite (mont_val l2 (- s * R) L1 L2); [|rewrite L3, RB, Z.mul_mod_idemp_r by lia; f_equal; ring]. rewrite <- Z.sub_0_l, Zminus_mod_idemp_r. reflexivity.
  - assert (0 <= s) by lia. set (m1 := setf _ f3). assert (ST : St 1 0 (pr + 8) bp m1) by (unfold m1; stt ST1).
    eapply (s_mul1 1 0 bp) with (a := p_R2 P); [pose proof N1; lia|reflexivity|lia|exact ST|exact N12|lia|exact RA| |exact RC|].
    + apply (s_data 1 0 (pr + 8) bp m1 SR2 (8 + sb) ST); [pose proof N1; lia|reflexivity|lia|lia|lia].
    + intros m2 l2 L1 L2 L3 (ST2 & AT & HH & _). specialize (HH eq_refl). unfold m1 in L3; rgi L3. apply t_subi; [destruct ST2 as (_ & _ & -> & _); lia|]. intros f5. rg. replace (regs m2 RDI) with (pr + 8) by (symmetry; apply ST2).
      apply (t_tail montRes 64 s) with (l2 := l2); [cbn [In]; tauto|stt ST2|eapply at_ext; [|exact AT]; intros; reflexivity|rg; rewrite HH; unfold m1; rg; rewrite mupd_eq; apply mod_B_W32|reflexivity|].
      apply (montRes_of SHORTMONTGOMERY l2); [right; split; [reflexivity|exact EV]|exact L1| |reflexivity]. rewrite EV, Z.mul_mod_idemp_l by lia. apply mont_val; [exact L1|exact L2|]. rewrite L3, ES. destruct (Z.ltb_spec s 0); [lia|]. rewrite RB, Z.mul_mod_idemp_r by lia. f_equal. ring.
Qed.
(** *** toNormal and toLongNormal *)
Definition normRes (L : list Z) : Prop := exists s' t' l', L = word_of s' t' :: l' /\ is_int32 s' /\ denotes q n s' t' l' v /\ t' <> LONGMONTGOMERY /\ limbs_ok n l' /\ (tlong t = true -> t' = LONG /\ eval l' = v) /\ (tlong t = false -> t' = t /\ s' = s).
Definition longRes (L : list Z) : Prop := exists s' l', L = word_of s' LONG :: l' /\ is_int32 s' /\ limbs_ok n l' /\ eval l' = v.
Lemma long_denotes s' l' : limbs_ok n l' -> eval l' = v -> denotes q n s' LONG l' v.
Proof. intros H1 H2. split; [exact v_range|]. split; [exact H1|]. right; right; left. auto. Qed.
Lemma longRes_of s' l' x : limbs_ok n l' -> eval l' = v -> is_int32 s' -> x = word_of s' LONG :: l' -> longRes x.
Proof. intros H1 H2 H3 ->. exists s', l'. auto. Qed.
Lemma longRes_norm L : tlong t = true -> longRes L -> normRes L.
Proof. intros T (s' & l' & -> & H1 & H2 & H3). exists s', LONG, l'. split; [reflexivity|]. split; [exact H1|]. split; [apply long_denotes; assumption|]. split; [discriminate|]. split; [exact H2|]. split; [auto|congruence]. Qed.
Lemma fromMont_tw m code : neededFor n opt <> 12%nat -> tlong t = true -> tmont t = true -> n <> 7%nat -> St 0 0 pr (regs m0 RBP) m -> regs m RSI = pa -> tnolab l_ret code = true ->
  tw lay ra (fromMont lay n opt ++ code) (fun s => snd s = Some l_ret /\ regs (fst s) RSP = sp0 /\ mem (fst s) sp0 = mem m0 sp0 /\ exists L, longRes L /\ Cres D K pr L m0 (setr (fst s) RSP ((sp0 + 8) mod B))) (m, None).
Proof.
  intros N12 T1 T2 N7 ST0 Es Hc. unfold fromMont. cbn [app]. pose proof e_ptr as (A1 & A2 & A3). pose proof pr_facts as (P1 & P2 & P3). pose proof sb_pos as SB. pose proof N1 as Hn1. pose proof q_pos as Q1. set (bp := regs m0 RBP) in *. pose proof ST0 as (_ & _ & ED & _).
  apply t_addi; [rewrite ED; lia|]. intros f2. rg. rewrite ED. apply t_addi; [rg; rewrite Es; lia|]. intros f3. rg. rewrite Es. set (m1 := setf _ f3). assert (ST : St 0 0 (pr + 8) bp m1) by (unfold m1; stt ST0).
  eapply (s_from 0 0 bp) with (a := l); [lia|reflexivity|lia|exact ST|exact N12|exact N7|lia|exact e_ok|apply (e_arr 0 m1 (8 + sb) 0); [lia|apply ST|apply ST|lia|lia|lia]|].
  intros m2 l2 L1 L2 L3 (ST2 & AT & HH & _). apply t_subi_any. intros x f4 Hx. apply t_subi; [rg; destruct ST2 as (_ & _ & -> & _); lia|]. intros f5. rg. replace (regs m2 RDI) with (pr + 8) by (symmetry; apply ST2).
  rewrite <- app_assoc. cbn [app]. apply (t_tail longRes 128 (sx32 (mem m2 pr))) with (l2 := l2); [cbn [In]; tauto|stt ST2|eapply at_ext; [|exact AT]; intros; reflexivity|rg; symmetry; apply sx32_back|exact Hc|].
  eapply longRes_of; [exact L1| |apply sx32_range|reflexivity]. rewrite <- (Z.mod_small v q) by exact v_range. apply mont_val; [exact L1|exact L2|]. rewrite L3, (v_mont T2). apply Z.mod_mod. lia.
Qed.
Lemma copy_tw (Q : list Z -> Prop) m code : St 0 0 pr (regs m0 RBP) m -> regs m RSI = pa -> tnolab l_ret code = true -> Q (word_of s t :: l) ->
  tw lay ra (Callf (f_copy lay n) :: TRet :: code) (fun s => snd s = Some l_ret /\ regs (fst s) RSP = sp0 /\ mem (fst s) sp0 = mem m0 sp0 /\ exists L, Q L /\ Cres D K pr L m0 (setr (fst s) RSP ((sp0 + 8) mod B))) (m, None).
Proof.
  intros ST Es Hc HQ. pose proof sb_pos as SB. eapply (s_copy 0 0 (regs m0 RBP)); [lia|reflexivity|lia|exact ST|lia|exact e_wok| |rewrite Es; unfold same_or_apart, apart, xapart in *; lia|].
  - rewrite Es. split; [apply e_whole, ST|]. cbn [length]. rewrite e_len. destruct ST as (_ & -> & _). unfold xoff in Oa. lia.
  - intros m' (ST' & AT & _ & _). apply finish' with (L := word_of s t :: l); [exact ST'|exact Edi|exact AT|exact Hc|exact HQ].
Qed.
Lemma toNormal_call : neededFor n opt <> 12%nat -> n <> 7%nat -> exists m' L, f_toNormal lay ra n opt m0 = Some m' /\ normRes L /\ Cres D K pr L m0 m'.
Proof.
  intros N12 N7. apply t_finish with (code := asm_toNormal lay n opt); [|reflexivity]. set (Q := fun s : X86RawFacts.st => _). unfold asm_toNormal. cbn [app]. pose proof e_ptr as (A1 & A2 & A3). pose proof (st0 0 ltac:(lia)) as ST0. pose proof (word_range s t e_type) as WR.
  apply (t_ld lay ra _ _ _ _ pa); [rewrite Esi, Z.add_0_r; apply Z.mod_small; lia|exact A2|]. rewrite e_head.
  assert (CP : tlong t = false \/ tmont t = false -> normRes (word_of s t :: l)).
  { intros T. exists s, t, l. split; [reflexivity|]. split; [exact e_int|]. split; [exact Hv|]. pose proof e_type as TT. split; [intros ->; destruct T; discriminate|]. split; [exact e_ok|]. split; [intros T1; destruct T as [T|T]; [congruence|]; split; [|apply v_long; assumption]; destruct TT as [-> | [-> | [-> | ->]]]; try discriminate; reflexivity|auto]. }
  apply t_btnc; rg; rewrite word_62 by exact e_type.
  - intros f T. eapply t_after; [reflexivity|]. apply copy_tw; [stt ST0|exact Esi|reflexivity|apply CP; auto].
  - intros f T. apply t_btnc; rg; rewrite word_63 by exact e_type.
    + intros f1 T1. eapply t_after; [reflexivity|]. apply copy_tw; [stt ST0|exact Esi|reflexivity|apply CP; auto].
    + intros f1 T1. eapply tw_mono; [|apply fromMont_tw; [exact N12|exact T1|exact T|exact N7|stt ST0|exact Esi|reflexivity]]. intros s0 (H1 & H2 & H3 & L & H4 & H5). split; [exact H1|]. split; [exact H2|]. split; [exact H3|]. exists L. split; [apply longRes_norm; assumption|exact H5].
Qed.
Hypothesis HQ : 2 ^ 32 < q.
Lemma toLongNormal_call : neededFor n opt <> 12%nat -> n <> 7%nat -> exists m' L, f_toLongNormal lay ra n opt m0 = Some m' /\ longRes L /\ Cres D K pr L m0 m'.
Proof.
  intros N12 N7. apply t_finish with (code := asm_toLongNormal lay ra n opt); [|reflexivity]. set (Q := fun s : X86RawFacts.st => _). unfold asm_toLongNormal. cbn [app]. pose proof e_ptr as (A1 & A2 & A3). pose proof pr_facts as (P1 & P2 & P3). pose proof (st0 0 ltac:(lia)) as ST0. pose proof (word_range s t e_type) as WR. pose proof e_int as IS. unfold is_int32 in IS. pose proof sb_pos as SB.
  apply (t_ld lay ra _ _ _ _ pa); [rewrite Esi, Z.add_0_r; apply Z.mod_small; lia|exact A2|]. rewrite e_head.
  apply t_btnc; rg; rewrite word_63 by exact e_type.
  - intros f T. eapply t_after; [reflexivity|]. apply t_mov. apply t_movsx. rg. rewrite sx32_word by exact e_int. rewrite Esi. assert (RS : 0 <= s mod B < B) by (apply Z.mod_pos_bound; reflexivity).
    assert (BB : B = 2 ^ 64) by reflexivity. set (m1 := setr _ RSI _). assert (ST : St 0 0 pr (regs m0 RBP) m1) by (unfold m1; stt ST0).
    eapply (s_copyS2L 0 0 (regs m0 RBP)) with (x := s); [lia|reflexivity|lia|exact ST|lia|reflexivity|change (B / 2) with (2 ^ 63); lia|lia|].
    intros m2 l2 L1 L2 (ST2 & AT & _ & _). apply t_mov. pose proof (st_range _ _ _ _ _ R8 ST2) as R8r. apply (t_tail longRes 128 (sx32 (mem m2 pr))) with (l2 := l2); [cbn [In]; tauto|stt ST2|rg; apply at_tail in AT; eapply at_ext; [|exact AT]; intros; reflexivity|rg; symmetry; apply sx32_back|reflexivity|].
    eapply longRes_of; [exact L1| |apply sx32_range|reflexivity]. rewrite L2. symmetry. apply v_short, T.
  - intros f T. apply t_btc; rg; rewrite word_62 by exact e_type.
    + intros f1 T1. eapply t_after; [reflexivity|]. apply fromMont_tw; [exact N12|exact T|exact T1|exact N7|stt ST0|exact Esi|reflexivity].
    + intros f1 T1. apply copy_tw; [stt ST0|exact Esi|reflexivity|]. exists s, l. split; [|split; [exact e_int|split; [exact e_ok|apply v_long; assumption]]]. f_equal. f_equal. pose proof e_type as [-> | [-> | [-> | ->]]]; try discriminate; reflexivity.
Qed.
(** *** neg *)
Definition valRes (w : Z) (L : list Z) : Prop := exists s' t' l', L = word_of s' t' :: l' /\ is_int32 s' /\ denotes q n s' t' l' w.
Lemma short_val s' l' : is_int32 s' -> limbs_ok n l' -> valRes (s' mod q) (word_of s' SHORT :: l').
Proof. intros H1 H2. exists s', SHORT, l'. split; [reflexivity|]. split; [exact H1|]. split; [apply Z.mod_pos_bound; pose proof q_pos; lia|]. split; [exact H2|]. left. auto. Qed.
Lemma long_val s' w l' : is_int32 s' -> limbs_ok n l' -> eval l' = w -> 0 <= w < q -> valRes w (word_of s' LONG :: l').
Proof. intros H1 H2 H3 H4. exists s', LONG, l'. split; [reflexivity|]. split; [exact H1|]. split; [exact H4|]. split; [exact H2|]. right; right; left. auto. Qed.
Lemma mont_valR s' w l' : is_int32 s' -> limbs_ok n l' -> eval l' = (w * R) mod q -> 0 <= w < q -> valRes w (word_of s' LONGMONTGOMERY :: l').
Proof. intros H1 H2 H3 H4. exists s', LONGMONTGOMERY, l'. split; [reflexivity|]. split; [exact H1|]. split; [exact H4|]. split; [exact H2|]. right; right; right. auto. Qed.
Definition memL (m : mach) (p : Z) (k : nat) : list Z := map (fun j => mem m (p + 8 * Z.of_nat j)) (seq 0 k).
Lemma memL_ok m p k : words m -> limbs_ok k (memL m p k).
Proof. intros W. split; [unfold memL; rewrite map_length, seq_length; reflexivity|]. unfold memL. apply Forall_forall. intros x Hx. apply in_map_iff in Hx. destruct Hx as (j & <- & _). apply W. Qed.
Lemma memL_at m p k : 0 <= p -> p mod 8 = 0 -> p + 8 * Z.of_nat k <= B -> at_addr m p (memL m p k).
Proof.
  intros H1 H2 H3. unfold at_addr. assert (E : length (memL m p k) = k) by (unfold memL; rewrite map_length, seq_length; reflexivity). rewrite E. split; [exact H1|]. split; [exact H2|]. split; [exact H3|]. intros j Hj. unfold memL.
  rewrite (nth_indep _ 0 (mem m (p + 8 * Z.of_nat 0))) by (rewrite map_length, seq_length; exact Hj). rewrite (map_nth (fun j => mem m (p + 8 * Z.of_nat j))), seq_nth by exact Hj. reflexivity.
Qed.
Lemma memL_pr m : words m -> at_addr m (pr + 8) (memL m (pr + 8) n) /\ limbs_ok n (memL m (pr + 8) n).
Proof. intros W. split; [|apply memL_ok, W]. destruct Dst as [D1 D2 D3 D4 D5]. apply memL_at; [lia|apply al8p, D2|lia]. Qed.
Lemma fits32_spec x : fits32 x = true <-> is_int32 x.
Proof. unfold fits32, is_int32. rewrite andb_true_iff, Z.leb_le, Z.ltb_lt. tauto. Qed.
Lemma opp_mod x : (- (x mod q)) mod q = (- x) mod q.
Proof. rewrite <- (Z.sub_0_l (x mod q)), <- (Z.sub_0_l x). apply Zminus_mod_idemp_r. Qed.
Lemma finish_short (Q : list Z -> Prop) s' m code : St K 0 pr (regs m0 RBP) m -> is_int32 s' -> mem m pr = s' mod W32 -> tnolab l_ret code = true -> (forall l', limbs_ok n l' -> Q (word_of s' SHORT :: l')) ->
  tw lay ra (TRet :: code) (fun s => snd s = Some l_ret /\ regs (fst s) RSP = sp0 /\ mem (fst s) sp0 = mem m0 sp0 /\ exists L, Q L /\ Cres D K pr L m0 (setr (fst s) RSP ((sp0 + 8) mod B))) (m, None).
Proof.
  intros ST Hs Hm Hc HQ'. destruct (memL_pr m (proj1 (proj1 ST))) as [AT LK]. pose proof pr_facts as (P1 & P2 & P3). apply finish' with (L := word_of s' SHORT :: memL m (pr + 8) n); [exact ST|exact Edi| |exact Hc|apply HQ', LK].
  apply at_cons; [rewrite Hm; unfold word_of, SHORT; lia|exact P1|exact P2|exact AT].
Qed.
Lemma neg_call : 16 + sb <= D -> exists m' L, f_neg lay ra n m0 = Some m' /\ valRes ((- v) mod q) L /\ Cres D K pr L m0 m'.
Proof.
  intros HD2. apply t_finish with (code := asm_neg lay ra n); [|reflexivity]. set (Q := fun s : X86RawFacts.st => _). unfold asm_neg. cbn [app]. pose proof e_ptr as (A1 & A2 & A3). pose proof pr_facts as (P1 & P2 & P3). pose proof (st0 0 ltac:(lia)) as ST0. pose proof (st0 1 ltac:(lia)) as ST1. pose proof (word_range s t e_type) as WR. pose proof e_int as IS. unfold is_int32 in IS. pose proof sb_pos as SB. pose proof N1 as Hn1. pose proof q_pos as Q1. set (bp := regs m0 RBP) in *.
  apply (t_ld lay ra _ _ _ _ pa); [rewrite Esi, Z.add_0_r; apply Z.mod_small; lia|exact A2|]. rewrite e_head.
  apply t_btc; rg; rewrite word_63 by exact e_type.
  - intros f T. eapply t_after; [reflexivity|]. apply (t_st lay ra _ _ _ _ pr); [rg; rewrite Edi, Z.add_0_r; apply Z.mod_small; lia|exact P2|]. rg. apply t_addi; [rg; rewrite Edi; lia|]. intros f2. rg. rewrite Edi. apply t_addi; [rg; rewrite Esi; lia|]. intros f3. rg. rewrite Esi.
    set (m1 := setf _ f3). assert (ST : St 1 0 (pr + 8) bp m1) by (unfold m1; stt ST1).
    eapply (s_neg 1 0 bp) with (a := l); [lia|reflexivity|lia|exact ST|lia|exact e_ok|apply v_lq; rewrite T; reflexivity|apply (e_arr 1 m1 8 0); [lia|apply ST|apply ST|lia|lia|lia]|unfold m1; rg; unfold same_or_apart, apart, xapart in *; lia|].
    intros m2 l2 L1 L2 (ST2 & AT & HH & _). specialize (HH eq_refl). apply t_subi; [rg; destruct ST2 as (_ & _ & -> & _); lia|]. intros f5. rg. replace (regs m2 RDI) with (pr + 8) by (symmetry; apply ST2). apply t_subi_any. intros x f4 Hx.
    apply finish' with (L := word_of s t :: l2); [stt ST2|exact Edi| |reflexivity|].
    + apply at_cons; [rg; rewrite HH; unfold m1; rg; apply mupd_eq|exact P1|exact P2|]. eapply at_ext; [|exact AT]. intros; reflexivity.
    + assert (RV : 0 <= (- v) mod q < q) by (apply Z.mod_pos_bound; lia). pose proof e_type as TT. destruct TT as [TT|[TT|[TT|TT]]]; try (rewrite TT in T; discriminate T); rewrite TT.
      * apply long_val; [exact e_int|exact L1|rewrite L2, v_long by (rewrite TT; reflexivity); reflexivity|exact RV].
      * apply mont_valR; [exact e_int|exact L1| |exact RV]. rewrite L2, v_mont by (rewrite TT; reflexivity). rewrite opp_mod, Z.mul_mod_idemp_l by lia. f_equal. ring.
  - intros f T. pose proof (v_short T) as EV. eapply tw_cons; [reflexivity|]. rg. rewrite sx32_word by exact e_int. assert (RN : 0 <= (- s) mod W32 < B) by (pose proof (Z.mod_pos_bound (- s) W32 ltac:(reflexivity)); assert (W32 < B) by reflexivity; lia).
    apply t_jo; cbn [fl setf ovf fl3]; intros HO.
    + assert (Es : s = - 2 ^ 31) by (destruct (fits32 (- s)) eqn:FF; [discriminate|]; destruct (Z.eq_dec s (- 2 ^ 31)) as [|N]; [assumption|]; exfalso; assert (fits32 (- s) = true) by (apply fits32_spec; unfold is_int32; lia); congruence).
      pose proof sp0_top. pose proof (xr_room _ _ _ _ Rdy). eapply t_after; [reflexivity|]. apply t_push; [rg; apply (xr_align _ _ _ _ Rdy)|rg; lia|]. rg. rewrite Esi. apply t_movsx. rg. replace (sx32 ((- s) mod W32)) with (- 2 ^ 31) by (rewrite Es; reflexivity). apply t_neg64. intros f4. rg. set (m1 := setf _ f4).
      assert (ST : St 0 8 pr bp m1). { unfold m1. stt ST0; change ((- 2 ^ 31) mod B) with (B - 2 ^ 31); assert (BB : B = 2 ^ 64) by reflexivity; try lia. apply Z.mod_pos_bound. lia. }
      eapply (s_copyS2L 0 8 bp) with (x := 2 ^ 31); [lia|reflexivity|lia|exact ST|lia|reflexivity|change (B / 2) with (2 ^ 63); lia|lia|].
      intros m2 l2 L1 L2 (ST2 & AT & _ & _). pose proof ST2 as (_ & SP2 & _). apply t_pop; [rewrite SP2; apply sp_al; reflexivity|rewrite SP2; lia|rewrite SP2; lia|]. pose proof (st_mrange _ _ _ _ _ (regs m2 RSP) ST2) as MR.
      apply finish' with (L := word_of 0 LONG :: l2); [stt ST2|exact Edi|eapply at_ext; [|exact AT]; intros; reflexivity|reflexivity|].
      apply long_val; [unfold is_int32; lia|exact L1| |apply Z.mod_pos_bound; lia]. rewrite L2, EV, opp_mod, Es. reflexivity.
    + assert (FF : is_int32 (- s)) by (apply fits32_spec; destruct (fits32 (- s)); [reflexivity|discriminate]). apply (t_st lay ra _ _ _ _ pr); [rg; rewrite Edi, Z.add_0_r; apply Z.mod_small; lia|exact P2|]. rg.
      apply finish_short with (s' := - s); [|exact FF|rg; apply mupd_eq|reflexivity|].
      * assert (ST' : St K 0 pr bp m0) by (split; [apply (inv_mono m0 D pr K Bpr 1 K m0); [lia|apply ST1]|apply ST1]). stt ST'.
      * intros l' Hl'. rewrite EV, opp_mod. apply short_val; assumption.
Qed.
End Elt.
End Op.
