(** * The xorshift state cycle: every non-zero 128-bit state is reached from every other one.

    States are coded as one 128-bit number; the step is additive for exclusive-or, so there is a linear map that doubles exponents on the orbit of the state 1, and huge powers are computed with it. *)
From Coq Require Import NArith ZArith Znumtheory Lia FinFun.
From Verif Require Import RandModel RandProofs XsPrime.
From Coq Require Import List.
Import ListNotations.
Local Open Scope N_scope.

Definition W : N := 340282366920938463463374607431768211456. (* 2^128 *)
Lemma W_pow : W = 2 ^ 128. Proof. reflexivity. Qed.

Definition code (g : xorshift) : N :=
  N.lxor (xs_x g) (N.lxor (N.shiftl (xs_y g) 32) (N.lxor (N.shiftl (xs_z g) 64) (N.shiftl (xs_w g) 96))).

Definition in32 (g : xorshift) : Prop := xs_x g < 2 ^ 32 /\ xs_y g < 2 ^ 32 /\ xs_z g < 2 ^ 32 /\ xs_w g < 2 ^ 32.

Definition low32 (c : N) : N := N.land c (N.ones 32).
Definition T_t (c : N) : N := N.lxor (low32 c) (low32 (N.shiftl (low32 c) 11)).
Definition T_w (c : N) : N := N.lxor (N.lxor (N.shiftr c 96) (N.shiftr (N.shiftr c 96) 19)) (N.lxor (T_t c) (N.shiftr (T_t c) 8)).
Definition T (c : N) : N := N.lxor (N.shiftr c 32) (N.shiftl (T_w c) 96).

(** ** Bounds *)

Lemma bound_log a k : a < 2 ^ k <-> a = 0 \/ N.log2 a < k.
Proof.
  destruct (N.eq_dec a 0) as [->|H]. { split; [auto|]. intros _. apply N.neq_0_lt_0. now apply N.pow_nonzero. }
  rewrite <- N.log2_lt_pow2 by lia. split; [auto|]. now intros [?|?].
Qed.

Lemma lxor_bound a b k : a < 2 ^ k -> b < 2 ^ k -> N.lxor a b < 2 ^ k.
Proof.
  intros Ha Hb. apply bound_log in Ha, Hb. apply bound_log. destruct (N.eq_dec (N.lxor a b) 0) as [|Hne]; [now left|right].
  destruct Ha as [->|Ha]. { rewrite N.lxor_0_l in *. destruct Hb; [contradiction|assumption]. }
  destruct Hb as [->|Hb]. { now rewrite N.lxor_0_r. }
  pose proof (N.log2_lxor a b). lia.
Qed.

Lemma shiftr_bound a k n : a < 2 ^ (k + n) -> N.shiftr a n < 2 ^ k.
Proof.
  intros H. rewrite N.shiftr_div_pow2. apply N.div_lt_upper_bound; [now apply N.pow_nonzero|]. now rewrite <- N.pow_add_r, N.add_comm.
Qed.

Lemma shiftl_bound a k n : a < 2 ^ k -> N.shiftl a n < 2 ^ (k + n).
Proof. intros H. rewrite N.shiftl_mul_pow2, N.pow_add_r. apply N.mul_lt_mono_pos_r; [|exact H]. apply N.neq_0_lt_0. now apply N.pow_nonzero. Qed.

Lemma low32_bound c : low32 c < 2 ^ 32.
Proof. unfold low32. rewrite N.land_ones. apply N.mod_lt. now apply N.pow_nonzero. Qed.

Lemma shiftr_le a k n : a < 2 ^ k -> N.shiftr a n < 2 ^ k.
Proof. intros H. apply N.le_lt_trans with a; [|exact H]. rewrite N.shiftr_div_pow2. apply N.div_le_upper_bound; [now apply N.pow_nonzero|]. assert (2 ^ n <> 0) by now apply N.pow_nonzero. nia. Qed.

Lemma T_w_bound c : c < W -> T_w c < 2 ^ 32.
Proof.
  intros Hc. unfold T_w, T_t. assert (Hs : N.shiftr c 96 < 2 ^ 32) by (apply shiftr_bound; exact Hc).
  assert (Ht : N.lxor (low32 c) (low32 (N.shiftl (low32 c) 11)) < 2 ^ 32) by (apply lxor_bound; apply low32_bound).
  apply lxor_bound; apply lxor_bound; auto; now apply shiftr_le.
Qed.

Lemma T_bound c : c < W -> T c < W.
Proof.
  intros Hc. unfold T. apply (lxor_bound _ _ 128).
  - apply shiftr_le. exact Hc.
  - apply (shiftl_bound _ 32 96), T_w_bound, Hc.
Qed.

(** ** Additivity *)

Definition additive (F : N -> N) : Prop := forall a b, F (N.lxor a b) = N.lxor (F a) (F b).

Lemma additive_0 F : additive F -> F 0 = 0.
Proof. intros H. specialize (H 0 0). cbn in H. now rewrite H, N.lxor_nilpotent. Qed.

Lemma add_id : additive (fun c => c). Proof. intros a b. reflexivity. Qed.
Lemma add_shiftl F n : additive F -> additive (fun c => N.shiftl (F c) n).
Proof. intros H a b. now rewrite H, N.shiftl_lxor. Qed.
Lemma add_shiftr F n : additive F -> additive (fun c => N.shiftr (F c) n).
Proof. intros H a b. now rewrite H, N.shiftr_lxor. Qed.
Lemma add_low F : additive F -> additive (fun c => low32 (F c)).
Proof.
  intros H a b. rewrite H. unfold low32. apply N.bits_inj. intros i. rewrite N.lxor_spec, !N.land_spec, N.lxor_spec.
  destruct (N.testbit (F a) i), (N.testbit (F b) i), (N.testbit (N.ones 32) i); reflexivity.
Qed.
Lemma add_lxor F G : additive F -> additive G -> additive (fun c => N.lxor (F c) (G c)).
Proof.
  intros HF HG a b. rewrite HF, HG. apply N.bits_inj. intros i. rewrite !N.lxor_spec.
  destruct (N.testbit (F a) i), (N.testbit (F b) i), (N.testbit (G a) i), (N.testbit (G b) i); reflexivity.
Qed.

Lemma T_additive : additive T.
Proof.
  assert (Ht : additive T_t) by (apply add_lxor; [apply (add_low _ add_id)|apply add_low, add_shiftl, (add_low _ add_id)]).
  assert (Hw : additive T_w).
  { apply add_lxor; apply add_lxor; [apply (add_shiftr _ _ add_id)|apply add_shiftr, (add_shiftr _ _ add_id)|exact Ht|now apply add_shiftr]. }
  apply add_lxor; [apply (add_shiftr _ _ add_id)|now apply add_shiftl].
Qed.

(** ** Linear maps given by their values on the single-bit states *)

Fixpoint ap (cols : list N) (v : N) : N :=
  match cols with [] => 0 | c :: cs => N.lxor (if N.odd v then c else 0) (ap cs (N.div2 v)) end.

Fixpoint units (k : N) (m : nat) : list N := match m with O => [] | S m => N.shiftl 1 k :: units (k + 1) m end.

Lemma lxor_swap a b c d : N.lxor (N.lxor a b) (N.lxor c d) = N.lxor (N.lxor a c) (N.lxor b d).
Proof.
  apply N.bits_inj. intros i. rewrite !N.lxor_spec. destruct (N.testbit a i), (N.testbit b i), (N.testbit c i), (N.testbit d i); reflexivity.
Qed.

Lemma ap_additive cols : additive (ap cols).
Proof.
  induction cols as [|c cs IH]; intros a b; cbn [ap]; [reflexivity|].
  replace (N.div2 (N.lxor a b)) with (N.lxor (N.div2 a) (N.div2 b)) by (rewrite !N.div2_spec; symmetry; apply N.shiftr_lxor).
  rewrite IH. rewrite lxor_swap. f_equal. rewrite <- !N.bit0_odd, N.lxor_spec.
  destruct (N.testbit a 0), (N.testbit b 0); cbn [xorb]; rewrite ?N.lxor_nilpotent, ?N.lxor_0_l, ?N.lxor_0_r; reflexivity.
Qed.

Lemma ap_spec F : additive F -> forall m v k, v < 2 ^ N.of_nat m -> ap (map F (units k m)) v = F (N.shiftl v k).
Proof.
  intros HF m. induction m as [|m IH]; intros v k Hv.
  { cbn in Hv. replace v with 0 by lia. cbn [units map ap]. rewrite N.shiftl_0_l. symmetry. now apply additive_0. }
  assert (E2 : 2 ^ N.of_nat (S m) = 2 * 2 ^ N.of_nat m) by (rewrite Nat2N.inj_succ; apply N.pow_succ_r'). rewrite E2 in Hv.
  cbn [units map ap]. pose proof (N.div2_odd v) as Ev. rewrite IH by (destruct (N.odd v); cbn [N.b2n] in Ev; lia).
  assert (Esh : N.shiftl (N.div2 v) (k + 1) = N.shiftl (2 * N.div2 v) k).
  { rewrite !N.shiftl_mul_pow2, N.pow_add_r. change (2 ^ 1) with 2. ring. }
  rewrite Esh. destruct (N.odd v); cbn [N.b2n] in Ev.
  - rewrite <- HF, <- N.shiftl_lxor. do 2 f_equal. rewrite Ev at 2. destruct (N.div2 v); reflexivity.
  - rewrite N.lxor_0_l. do 2 f_equal. lia.
Qed.

(** Additive maps that agree on the single-bit states agree on all states. *)
Lemma units_ext F G : additive F -> additive G -> map F (units 0 128) = map G (units 0 128) -> forall v, v < W -> F v = G v.
Proof.
  intros HF HG E v Hv. rewrite <- (N.shiftl_0_r v). rewrite <- (ap_spec F HF 128 v 0 Hv), <- (ap_spec G HG 128 v 0 Hv). now rewrite E.
Qed.

Lemma T_iter_bound n v : v < W -> N.iter n T v < W.
Proof. intros H. apply (N.iter_invariant n N T (fun v => v < W)); [exact T_bound|exact H]. Qed.

(** The map that doubles the exponent on the orbit of 1: it sends T^k 1 to T^(2k) 1. *)
Definition dbl : list N := [
  1;
  25756144643918567003451849385609913543;
  151940080023571163747767601185889540880;
  56497962707113432138332721285930826813;
  96264834678262839772241167310710441442;
  27916426222143592872477234633162390731;
  126135484528895049862998871772198237745;
  146741136347350136885568557187699585767;
  93403589005716230672096872561027268647;
  103063780146071691103114414243797514232;
  21450386427564760402192258801465476409;
  56497963340938732400021374658322775157;
  66035742482383807276753039865581478082;
  70991594116031939572789024429275536732;
  134947762349034316516219680511018635011;
  133274381630555815064727340107216136888;
  100527283451760045716574905852735458547;
  142247103567578132302735489351392150648;
  23447732784408080593221162511177879547;
  230271209355054883515094624379564480163;
  58230924926317613682715356815927601030;
  21169512879258670929872566243507936421;
  244678204680363763883610253672777657981;
  139751318226147251829844794564099163219;
  146952694142132495186449891159047186581;
  315118587258595523000749272441534593340;
  126027135342434045234046179352919730029;
  153071632267935093012520305294456924940;
  23440384902792998975668277486039622975;
  109235483096582390663038350727438420433;
  29909054507448141379080686192168075123;
  139444202854193558006986389638227674221;
  18446744073709551616;
  65160626776753156962074424011070286739;
  115496889064291051955500752270136796317;
  24606219257409668451357839527434878985;
  55174636514565602563034672469816194264;
  12185098111953560874034554564386508999;
  101551992704279436479717219606372804154;
  63997470209110542709796093006176725518;
  82100755450925946882628483270450994107;
  139461519737149785416747212782006493368;
  8037758919801262553513542513060668227;
  24606219891312340850945544670702567433;
  89438243371801011438410564086567896601;
  115381511477846020493296591469065317001;
  157567850838752705752841532522068007753;
  27970670495229900292405648330041258104;
  55863245092356117798568132115328968108;
  154925802944512813216310103201224208091;
  132258795497882496637899186202965474282;
  211148241733404550896946248914906307031;
  80633597898182233057874621658995389262;
  11213316973696594912629723187099537341;
  170227789893114060028570469865784578633;
  49847027058807540599379941401457069088;
  140789766505673396161260720678305743576;
  324984393261242636814618812429141767353;
  59689073926818771038001264542379376155;
  102719579486552808554985520387177655079;
  16345091050936174256838086245863097594;
  138760534050333704925981806955110861258;
  15296036501152745040753811185538996620;
  32808538838557470133988591697371184319;
  18023198901667841;
  152385711368139700270566769413117486027;
  86754224919299614499897285287673595697;
  40732013779384337491972434650668131537;
  134446754334552065733991223091123705923;
  83909850771332930941541036373471802000;
  110006609627725655375851650095090205369;
  99408828187470055408640048170721715875;
  137619169739822974558256057946997181981;
  67637373978300567500325233684216496671;
  66493151694684950710780877184682731724;
  40732013779384337491954420217794716889;
  2869343392838972290480380814309903478;
  91276101073087598203704433505624378104;
  125003820144317870667087902435311255462;
  67464234098031967432255668911264924503;
  86421507099930869786047057711915094756;
  45590651451972487798638489650379912051;
  107186961616870110940036374502401488480;
  197347990802400419967099665832761603490;
  45927355459503143923687184439913623130;
  67002022217076684727922254128330931816;
  189034026543623248351753440606490490051;
  118528072824529333678923085884720731518;
  34602185926368514407524414150654140153;
  84593214359933604564704215712948880249;
  51736891613904944545915566877911918714;
  138118284049696676260288314018489783059;
  36059520321824959268775786476703522328;
  208180020171979956577509397418614534144;
  16963292875746741243874877424450635428;
  93933919092346521812897805071473885120;
  195159500970849335663774856968550896200;
  119824002592183582700760518128732036646;
  169823241576154707759165749603344872844;
  258288593512476105617695609691472859307;
  122030506581834882137941759270629256262;
  94588587919941321702058068197324671841;
  3658645007961792433126584851270232882;
  1365615526148385109943330495512641039;
  112558364750680583157530096363284847398;
  155592963491210676370118577611203921620;
  326244411355604145866766363627715443592;
  107017144710727584865893214787947545315;
  8837739923874443265428250879685034768;
  32106918775275680227597849245939473767;
  174122327046740250150147386648842422350;
  104896053000558341383009627079633942478;
  159405200271499972471192071999997424757;
  4215809940173089310235558847175456680;
  254185794633394083952260403465238132019;
  316007949968933255355399912751984368713;
  57856272143617022294026369433978059948;
  3165473154460078684726511757017970694;
  108997425374766533770397409145814591961;
  58346329384388087709609203524011270780;
  87474191427367321715052424379564021112;
  291840590036729735448546896260099885192;
  313634607294931884939532911470491033500;
  288375840062179466458925999421387900050;
  131446136483892908963260329518110061246;
  95129015166467230151730873332411110430;
  151754778376975083034916401178710241551;
  99442378250663116023369775490219104328].

Lemma dbl_1 : ap dbl 1 = 1. Proof. vm_compute. reflexivity. Qed.

Lemma dbl_T : forall v, v < W -> ap dbl (T v) = T (T (ap dbl v)).
Proof.
  apply units_ext.
  - intros a b. now rewrite T_additive, ap_additive.
  - intros a b. now rewrite ap_additive, !T_additive.
  - vm_compute. reflexivity.
Qed.

Lemma dbl_iter k : ap dbl (N.iter k T 1) = N.iter (2 * k) T 1.
Proof.
  induction k as [|k IH] using N.peano_ind; [exact dbl_1|]. rewrite N.iter_succ, dbl_T, IH by now apply T_iter_bound.
  replace (2 * N.succ k) with (N.succ (N.succ (2 * k))) by lia. now rewrite !N.iter_succ.
Qed.

Fixpoint pw (p : positive) : N := match p with xH => T 1 | xO p => ap dbl (pw p) | xI p => T (ap dbl (pw p)) end.

Lemma pw_spec p : pw p = N.iter (N.pos p) T 1.
Proof.
  induction p as [p IH|p IH|]; cbn [pw]; [| |reflexivity]; rewrite IH, dbl_iter; [|reflexivity]. rewrite <- N.iter_succ. f_equal.
Qed.

(** ** The order of the state 1 *)

Lemma iter_mul_fix n m v : N.iter n T v = v -> N.iter (m * n) T v = v.
Proof. apply iter_mul_fix_gen. Qed.

Definition period : N := 340282366920938463463374607431768211455.

Lemma period_factors : Z.of_N period = fold_right Z.mul 1%Z factors. Proof. reflexivity. Qed.

Lemma period_fix : N.iter period T 1 = 1.
Proof. unfold period. rewrite <- pw_spec. vm_cast_no_check (eq_refl 1). Qed.

Definition moves (k : Z) : bool := negb (pw (Z.to_pos k) =? 1).
Definition cofactors : list Z := map (Z.div (Z.of_N period)) factors.
Lemma cofactors_move : forallb moves cofactors = true. Proof. vm_cast_no_check (eq_refl true). Qed.

Lemma moves_spec k : (0 < k)%Z -> moves k = true -> N.iter (Z.to_N k) T 1 <> 1.
Proof.
  intros Hk H. unfold moves in H. apply Bool.negb_true_iff, N.eqb_neq in H. rewrite pw_spec in H.
  destruct k as [|p|p]; [lia|exact H|lia].
Qed.

Lemma cofactor_moves f k : In f factors -> Z.of_N period = (f * k)%Z -> N.iter (Z.to_N k) T 1 <> 1.
Proof.
  intros Hin Hk. assert (Hf : (0 < f)%Z) by (unfold factors in Hin; cbn [In] in Hin; lia).
  assert (Hk' : (Z.of_N period / f)%Z = k) by (rewrite Hk, Z.mul_comm, Z.div_mul; lia).
  assert (Hk0 : (0 < k)%Z) by (destruct (Z_lt_le_dec 0 k); [assumption|exfalso; assert (f * k <= 0)%Z by (apply Z.mul_nonneg_nonpos; lia); unfold period in Hk; lia]).
  apply moves_spec; [exact Hk0|]. apply (proj1 (forallb_forall moves cofactors) cofactors_move). rewrite <- Hk'. now apply in_map.
Qed.

Lemma order_of_1 d : 0 < d -> d < period -> N.iter d T 1 <> 1.
Proof.
  intros Hd Hlt. apply (order_gen T 1 period factors factors_prime period_factors period_fix cofactor_moves d Hd Hlt).
Qed.

Lemma iter_0 n : N.iter n T 0 = 0.
Proof. apply (N.iter_invariant n N T (fun v => v = 0)); [intros x ->; apply additive_0, T_additive|reflexivity]. Qed.

Lemma orbit_nonzero n : N.iter n T 1 <> 0.
Proof.
  intros H. assert (Hm : exists m, n <= m * period) by (exists n; unfold period; nia). destruct Hm as (m & Hm).
  pose proof (iter_mul_fix period m 1 period_fix) as E. replace (m * period) with (m * period - n + n) in E by lia. rewrite N.iter_add, H, iter_0 in E. discriminate.
Qed.

Lemma orbit_inj i j : i < period -> j < period -> N.iter i T 1 = N.iter j T 1 -> i = j.
Proof.
  assert (A : forall i j, i < j -> j < period -> N.iter i T 1 <> N.iter j T 1).
  { intros a b Hab Hb E. apply (order_of_1 (period - b + a)); [lia|lia|]. rewrite N.iter_add, E, <- N.iter_add. replace (period - b + b) with period by lia. exact period_fix. }
  intros Hi Hj E. destruct (N.lt_trichotomy i j) as [H|[H|H]]; [|exact H|]; exfalso; [now apply (A i j)|symmetry in E; now apply (A j i)].
Qed.

(** Every non-zero state is on the orbit of 1 ... *)
Lemma orbit_all u : 0 < u -> u < W -> exists i, i < period /\ N.iter i T 1 = u.
Proof.
  intros H0 Hu. set (f := fun i : nat => (N.to_nat (N.iter (N.of_nat i) T 1%N) - 1)%nat).
  assert (Hf : bFun (N.to_nat period) f).
  { intros i Hi. unfold f. pose proof (T_iter_bound (N.of_nat i) 1 eq_refl) as HB. pose proof (orbit_nonzero (N.of_nat i)) as Hn.
    set (x := N.iter (N.of_nat i) T 1) in *. clearbody x. unfold period in *. unfold W in HB. lia. }
  assert (Hs : bSurjective (N.to_nat period) f).
  { apply (bInjective_bSurjective Hf). intros i j Hi Hj E. unfold f in E.
    pose proof (orbit_nonzero (N.of_nat i)) as Hni. pose proof (orbit_nonzero (N.of_nat j)) as Hnj.
    apply Nat2N.inj. apply orbit_inj; [lia|lia|]. set (x := N.iter (N.of_nat i) T 1) in *. set (y := N.iter (N.of_nat j) T 1) in *. lia. }
  destruct (Hs (N.to_nat u - 1)%nat) as (i & Hi & E). { unfold period. unfold W in Hu. lia. }
  exists (N.of_nat i). split; [lia|]. unfold f in E. pose proof (orbit_nonzero (N.of_nat i)). set (x := N.iter (N.of_nat i) T 1) in *. lia.
Qed.

(** ... and so on the orbit of every other one. *)
Lemma orbit_all_from v u : 0 < v -> v < W -> 0 < u -> u < W -> exists n, n < period /\ N.iter n T v = u.
Proof.
  intros Hv Hv' Hu Hu'. destruct (orbit_all v Hv Hv') as (i & Hi & <-). destruct (orbit_all u Hu Hu') as (j & Hj & <-).
  destruct (N.le_gt_cases i j) as [H|H].
  - exists (j - i). split; [lia|]. rewrite <- N.iter_add. f_equal. lia.
  - exists (period - i + j). split; [lia|]. rewrite <- N.iter_add. replace (period - i + j + i) with (j + period) by lia. rewrite N.iter_add, period_fix. reflexivity.
Qed.

Lemma orbit_period v n : 0 < v -> v < W -> 0 < n -> n < period -> N.iter n T v <> v.
Proof.
  intros Hv Hv' Hn Hn' E. destruct (orbit_all v Hv Hv') as (i & Hi & <-). rewrite <- N.iter_add in E.
  destruct (N.lt_ge_cases (n + i) period) as [H|H].
  - apply orbit_inj in E; lia.
  - replace (n + i) with (n + i - period + period) in E by lia. rewrite N.iter_add, period_fix in E. apply orbit_inj in E; lia.
Qed.

Lemma orbit_period_fix v : v < W -> N.iter period T v = v.
Proof.
  intros Hv. destruct (N.eq_dec v 0) as [->|H]; [apply iter_0|]. destruct (orbit_all v ltac:(lia) Hv) as (i & _ & <-).
  rewrite <- N.iter_add, N.add_comm, N.iter_add, period_fix. reflexivity.
Qed.
