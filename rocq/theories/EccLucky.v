(** Points whose slopes can be computed, and the conditions of EccHonest.v for multiples of
    the generator: certificates checked with integers. Nothing here models repository code. *)
From Coq Require Import ZArith Arith NArith PArith Lia List Bool.
From Verif Require Import Util Algebra PField Bn254 Curve CurveAssoc Bn254Curve Bn254Prime Gate Integer Ecc EccSound EccMul EccComplete EccHistory EccHonest GeneratorOrder.
Import ListNotations.

(** a slope [l] at the point (x, y), with the quotients of EccComplete.v *)
Definition slope_cert (x y : Z) (h : Z * Z * Z * Z * Z) : bool :=
  let '(l, a, qa, q, b) := h in
  let two_at_least q := (2 <=? Z.land q (Z.ones 68))%Z in
  (0 <=? l)%Z && (l <? fq_mod)%Z && (0 <? y)%Z && (y <? fq_mod)%Z && (0 <=? a)%Z && (a <? fq_mod)%Z && (x * x =? a + qa * fq_mod)%Z &&
  (l * (2 * y) =? 3 * a + q * fq_mod)%Z && (0 <=? q - b * l)%Z && (0 <=? b)%Z && (0 <=? 2 * y - b * fq_mod)%Z && (2 * y - b * fq_mod <? fq_mod)%Z &&
  two_at_least q && two_at_least (q - b * l)%Z.
(** a walk through multiples of the generator (GeneratorOrder.v) with a slope at each *)
Fixpoint walks (l : list (bool * Z * Z * Z * Z * (Z * Z * Z * Z * Z))) (last : Z * Z * Z * Z * Z) (k x y : Z) : option (list N) :=
  match l with
  | [] => if slope_cert x y last then Some [Z.to_N k] else None
  | (add, s, q1, q2, q3, t) :: l =>
      match walk fq_mod [(add, s, q1, q2, q3)] k x y with
      | Some (k', x', y') => if slope_cert x y t then match walks l last k' x' y' with Some ks => Some (Z.to_N k :: ks) | None => None end else None
      | None => None
      end
  end.

Section Lucky.
  Variable W : PF.
  Hypothesis HW : pf_n W = fq_mod.
  Local Notation onc := (on_curve (curve_b W)).
  Local Notation g := (G W).
  Implicit Types (P Q : point W).

  Lemma slope_cert_ok x y h : slope_cert x y h = true -> fine W (Aff (ofZ x) (ofZ y)).
  Proof.
    destruct h as [[[[l a] qa] q] b]. unfold slope_cert. cbv zeta. rewrite !andb_true_iff, !Z.leb_le, !Z.ltb_lt, !Z.eqb_eq, !Z.land_ones by lia.
    intros (((((((((((((L0 & L1) & Y0) & Y1) & A0) & A1) & Ea) & El) & Q1) & B0) & B1) & B2) & T1) & T2).
    assert (Ey : @toZ W (ofZ y) = y) by (rewrite toZ_ofZ, HW; apply Z.mod_small; lia).
    assert (Ex : @toZ W (fmul (ofZ x) (ofZ x)) = a).
    { rewrite <- ofZ_mul, toZ_ofZ, HW, Ea, Z.mod_add by discriminate. apply Z.mod_small. lia. }
    assert (Hy : @ofZ W y <> f0). { intro E. rewrite <- ofZ_0 in E. apply ofZ_eq in E. rewrite HW, Zmod_0_l, Z.mod_small in E by lia. lia. }
    assert (H2 : ((2 * y) mod fq_mod <> 0)%Z).
    { intro E. apply Z.mod_divide in E; [|discriminate]. destruct E as [k Ek]. assert (Ho : (fq_mod mod 2 = 1)%Z) by reflexivity.
      assert (k = 1)%Z by (clear - Ek Y0 Y1; nia). subst k. rewrite Z.mul_1_l in Ek. rewrite <- Ek, Z.mul_comm, Z.mod_mul in Ho; discriminate. }
    assert (Em : ((2 * y) mod fq_mod = 2 * y - b * fq_mod)%Z).
    { symmetry. apply Z.mod_unique_pos with b; lia. }
    assert (El' : (l * (2 * y - b * fq_mod) = 3 * a + (q - b * l) * fq_mod)%Z) by (rewrite Z.mul_sub_distr_l, El; ring).
    assert (P0 : (0 < fq_mod)%Z) by reflexivity.
    assert (Q0 : (0 <= q)%Z). { apply Z.le_trans with (q - b * l)%Z; [assumption|]. pose proof (Z.mul_nonneg_nonneg b l B0 L0). lia. }
    assert (F : forall d q, (d mod fq_mod <> 0 -> l * d = 3 * a + q * fq_mod -> 0 <= q -> 2 <= q mod 2 ^ 68 -> reaches W (3 * a) d /\ not_tiny W (3 * a) d)%Z).
    { intros d q' Hd E Hq T. unfold reaches, not_tiny. rewrite (quotient_eq W HW (3 * a) d l); [|lia| |assumption].
      - rewrite E. replace (3 * a + q' * fq_mod - 3 * a)%Z with (q' * fq_mod)%Z by ring. rewrite Z.div_mul by discriminate.
        split; [|exact T]. pose proof (Z.mul_nonneg_nonneg q' fq_mod Hq (Z.lt_le_incl _ _ P0)). lia.
      - rewrite E, Z.mod_add by discriminate. reflexivity. }
    split; right; (split; [assumption|]); unfold slope_num, slope_den; rewrite Ey, Ex.
    - change ((0 =? 0)%nat) with true. cbv iota. apply (F _ q); auto.
    - change ((1 =? 0)%nat) with false. cbv iota. apply (F _ (q - b * l)%Z); auto; [now rewrite Z.mod_mod|now rewrite Em].
  Qed.
  Lemma walks_ok l last : forall k x y ks, (0 <= k)%Z -> walks l last k x y = Some ks -> smul (Z.to_N k) g = Aff (ofZ x) (ofZ y) ->
    Forall (fun m => fine W (smul m g)) ks.
  Proof.
    induction l as [|[[[[[add s] q1] q2] q3] t] l IH]; intros k x y ks Hk H E; unfold walks in H; fold walks in H.
    - destruct (slope_cert x y last) eqn:Ec; [|discriminate]. injection H as <-. constructor; [|constructor]. rewrite E. exact (slope_cert_ok _ _ _ Ec).
    - destruct (walk fq_mod [(add, s, q1, q2, q3)] k x y) as [[[k' x'] y']|] eqn:Ew; [|discriminate].
      destruct (slope_cert x y t) eqn:Ec; [|discriminate]. destruct (walks l last k' x' y') as [ks'|] eqn:El; [|discriminate]. injection H as <-.
      destruct (walk_ok W HW _ _ _ _ _ _ _ Hk Ew E) as [Hk' E']. constructor; [rewrite E; exact (slope_cert_ok _ _ _ Ec)|]. exact (IH _ _ _ _ Hk' El E').
  Qed.
  Lemma walks_start l last ks : walks l last 1 1 2 = Some ks -> Forall (fun m => fine W (smul m g)) ks.
  Proof. intro H. apply (walks_ok l last 1 1 2); [lia|assumption|]. apply (smul_1 W). Qed.

  (** sets of multiples *)
  Definition memb (ks : list N) (m : N) : bool := (m =? 0)%N || existsb (N.eqb m) ks.
  Lemma memb_ok ks m : Forall (fun m => fine W (smul m g)) ks -> memb ks m = true -> fine W (smul m g).
  Proof.
    intros H E. apply orb_true_iff in E. destruct E as [E|E]; [apply N.eqb_eq in E; subst; exact I|].
    apply existsb_exists in E. destruct E as (m' & HI & E). apply N.eqb_eq in E. subst m'. exact (proj1 (Forall_forall _ _) H m HI).
  Qed.
  Lemma g_on : onc g. Proof. exact (G_on W). Qed.

  (** [mul] *)
  Definition luckyb (ks : list N) (K : N) : bool :=
    forallb (memb ks) (map N.of_nat (seq 1 15)) &&
    forallb (fun m => forallb (fun i => memb ks (2 ^ N.of_nat i * (K / 16 ^ N.of_nat m))) (seq 0 4)) (seq 1 63).
  Lemma luckyb_ok ks K : Forall (fun m => fine W (smul m g)) ks -> (K < 2 ^ 256)%N -> luckyb ks K = true -> lucky W K g.
  Proof.
    intros F HK. unfold luckyb. rewrite andb_true_iff, !forallb_forall. intros [H1 H2]. split.
    - intros i L1 L2. apply (memb_ok ks); [assumption|]. apply H1. apply in_map_iff. exists (N.to_nat i). split; [apply N2Nat.id|]. apply in_seq. lia.
    - intros m i Hm Hi. apply (memb_ok ks); [assumption|]. destruct (N.lt_ge_cases m 64) as [L|L].
      + specialize (H2 (N.to_nat m) ltac:(apply in_seq; lia)). rewrite forallb_forall in H2. specialize (H2 (N.to_nat i) ltac:(apply in_seq; lia)).
        rewrite !N2Nat.id in H2. exact H2.
      + assert (E : (K / 16 ^ m = 0)%N).
        { apply N.div_small. apply N.lt_le_trans with (2 ^ 256)%N; [assumption|]. change (2 ^ 256)%N with (16 ^ 64)%N. apply N.pow_le_mono_r; [discriminate|assumption]. }
        rewrite E, N.mul_0_r. reflexivity.
  Qed.

  (** [shamir], the points being multiples of the generator *)
  Definition comb (f : N -> N) (E : list (N * N)) : N := fold_right (fun Kn s => f (fst Kn) * snd Kn + s)%N 0%N E.
  Definition pts (E : list (N * N)) : list (N * point W) := map (fun Kn => (fst Kn, smul (snd Kn) g)) E.
  Lemma pts_on E : ond W (pts E).
  Proof. apply Forall_forall. intros KP HI. apply in_map_iff in HI. destruct HI as (Kn & <- & _). apply (son W), g_on. Qed.
  Lemma pts_sum f E : wsum W f (pts E) = smul (comb f E) g.
  Proof.
    unfold wsum, pts. induction E as [|[K n] E IH]; [reflexivity|]. cbn [map psum comb fold_right fst snd] in *.
    rewrite IH, <- (smulmul W HW), <- (sadd W HW) by exact g_on. reflexivity.
  Qed.
  Definition small (a b : N) : bool := (a + b <? Z.to_N fr_mod)%N.
  Lemma small_ok a b : small a b = true -> nocancel W (smul a g) (smul b g).
  Proof. intro H. apply N.ltb_lt in H. exact (nocancel_mul W HW a b g g_on H). Qed.
  Fixpoint innerb (ts : list N) (A : N) : bool := match ts with [] => true | T :: ts => small T A && innerb ts (T + A) end.
  Lemma innerb_ok ts : forall A, innerb ts A = true -> inner_lucky W (map (fun t => smul t g) ts) (smul A g).
  Proof.
    induction ts as [|T ts IH]; intros A H; [exact I|]. cbn [innerb] in H. apply andb_true_iff in H. destruct H as [H1 H2]. cbn [map inner_lucky].
    split; [now apply small_ok|]. rewrite <- (sadd W HW) by exact g_on. now apply IH.
  Qed.
  Definition windowb (ks : list N) (E : list (N * N)) (j : nat) : bool :=
    match map (fun Kn => (dig j (fst Kn) * snd Kn)%N) E with [] => false | T :: ts => innerb ts T end &&
    (memb ks (comb (dig j) E) && forallb (fun i => memb ks (2 ^ N.of_nat i * comb (lead j) E)) (seq 0 4) &&
     small (comb (dig j) E) (16 * comb (lead j) E)).
  Definition sluckyb (ks : list N) (E : list (N * N)) : bool :=
    forallb (fun Kn => forallb (fun i => memb ks (N.of_nat i * snd Kn)) (seq 1 15)) E && forallb (windowb ks E) (seq 0 64).
  Lemma sluckyb_ok ks E : Forall (fun m => fine W (smul m g)) ks -> sluckyb ks E = true -> slucky W (pts E).
  Proof.
    intro F. unfold sluckyb. rewrite andb_true_iff, !forallb_forall. intros [H1 H2]. split.
    - intros K P HI i L1 L2. apply in_map_iff in HI. destruct HI as ([K' n] & EP & HI). cbn [fst snd] in EP. injection EP as <- <-.
      specialize (H1 _ HI). cbn [snd] in H1. rewrite forallb_forall in H1. specialize (H1 (N.to_nat i) ltac:(apply in_seq; lia)). rewrite N2Nat.id in H1.
      rewrite <- (smulmul W HW) by exact g_on. exact (memb_ok _ _ F H1).
    - intros j Hj. specialize (H2 j ltac:(apply in_seq; lia)). unfold windowb in H2. rewrite !andb_true_iff, forallb_forall in H2.
      destruct H2 as (H2 & (H3 & H4) & H5). split.
      + assert (ET : terms W j (pts E) = map (fun t => smul t g) (map (fun Kn => (dig j (fst Kn) * snd Kn)%N) E)).
        { unfold terms, pts. rewrite !map_map. apply map_ext. intros [K n]. cbn [fst snd]. now rewrite (smulmul W HW) by exact g_on. }
        rewrite ET. destruct (map _ E) as [|T ts]; [discriminate|]. cbn [map]. now apply innerb_ok.
      + intros _. rewrite !pts_sum. split; [exact (memb_ok _ _ F H3)|]. split.
        * intros i Hi. rewrite <- (smulmul W HW) by exact g_on. apply (memb_ok ks); [assumption|].
          specialize (H4 (N.to_nat i) ltac:(apply in_seq; lia)). now rewrite N2Nat.id in H4.
        * rewrite <- (smulmul W HW) by exact g_on. now apply small_ok.
  Qed.
End Lucky.

(** 1, ..., 30; 18, 36, 72, 144; 20, 40, 80, 160 *)
Local Open Scope Z_scope.
Definition ex_walk0 : list (bool * Z * Z * Z * Z * (Z * Z * Z * Z * Z)) := [
  (false, 16416182153879456416684804308942956316522233367973367747016778420983919656438, 3, 12312136615409592312513603231707217237391675025980025810262583815737939742329, (-1026011384617466026042800269308934769782639585498335484188548651311494978526), (16416182153879456416684804308942956316522233367973367747016778420983919656438, 1, 0, 3, 0));
  (true, 13329378671953404782778259908970776496321471538098033640740119230713439037279, 833086166997087798923641244310673531020091971131127102546257451919589939828, 8117249832279317015153427508668101071477819205893033306860970044344722490651, (-1208823912269936076413199359759142986825340552456540115266002758965506244056), (21142052773935663566942551003941686165218027822389943310551911602782320769636, 2137523717953054220922500561060280770380499136454865592059476356898947871934, 85500948718122168836900022442411230815219965458194623682379054275957914877, 19159985326379195107541686847322153087228837714040886125187669890021478197482, 0));
  (true, 2340613384022439978602689658656590896722478494967453754139532898407575180212, 358555501957415197248143780714651991411135758926638214802439950906617368171, 250292864783285393982280624920445471764903731833640888044641192807569956623, 36660711928502674364380288143723620413015976238061478211711317538323519101, (6597588128837311533837462132024146759936159999671213887650727707654607578784, 3423868311515701899217023175042589246536834560121886154457325271452444415209, 513646476080125843944382035895565180737366561938921956005675173156520821425, 11647853375488735273566008517310824416815426627649952723378851799791574930387, 1));
  (true, 21635407612264672047965658712438282681626331733729169423395059925778107889692, 2975427312378857919819657351336101634288745260385016197819697678325630798686, 21385492900897545213431856887501142526759758313336733560408694672552311097232, (-7645056223444428543847603265296962700140922805419964079950475838506578842068), (7790117279743201391352217075161109145090987528568760938134199078502047127619, 9124316945430082504966873780541924622394633819557863515148416252475541617945, 413980062665682488171201283872105210843661913982227977281889824961360076253, 2866583733113148654829296092972052697510516321417569475212716833735860538491, 0));
  (true, 12367127958383060706732177978843005994431054677045992097873032535166283202597, 6070829873941012002863909305638596689699074312475340058737579351214520488386, 6987580265558698457092009401859570885797956585410252489125723537740654015130, 3526397112951513770206513887836810077065484230868918158037798931620902860148, (20515521574497058241549135939098113513261860641120929235963256180545526078771, 5926129748097670579600964763217237711120486556054020812009161614759988498093, 5274354491495471926290100072623347552075316316043761842227576690401102814204, 1590905250867937141646394159083033786147673748365503152730258291237245893655, 0));
  (true, 4977997355531446710604378450306035277182050696644518357652168094812390518907, 1024181167863434848770731847075411465736095716856614601265124820235665171086, 1132135540379983357570496466461482623168865207233960481613305539801340275361, (-1344676452577118340903075057439897038058659589576031445766817701166599147709), (5245267500582376167353803737789836095861322058499971942886663563000946844758, 473724364933527066316596505638449721561152622911036530210142031448326575227, 926520745258157736297687144145570323211952349701331060185776940462656643994, 2939235395162623647651620317294500719332055399017138559875909845524740546329, 0));
  (true, 895758563419323104115755810144108901417733822187936201110369072850199390352, 426260672210463890576416171830563227594347146244291585298879060576210473996, 36658191735041954410480681998232084753991060995973433348585293143512959676, 265317890356082551056297627793026530631427812848549465855677825177747939303, (8651066264913411995039860537190286009514535509805163890982111219020040038264, 5066151766205390524564846617532683626297475716517790274062178140837026758406, 4956550011702550602315226304462741332043400000642571170609214167280303632886, 8059864175404033938901365272236386456438249330049139397024723299748211813250, 0));
  (true, 20522751404859359746352983279302201319840755908747292077647748579042560195659, 3687364918729535833251562885909184209483936488495213422107418679742953175089, 19242445713517645671228678065374051492846702968234564365777229640427467731316, 2164611982400715406516360912661061643879505033090748864318204696739032464339, (7460228494492318376825991074923955587327805785423485491717518377853095330767, 15102273779043179337495825727002903712829249915883142064662513208585514372636, 706597292584577467043902165706817812189987614988060271900230914509739232491, 12824690755591822011034788990235263314993562025841320591170315176032242910118, 1));
  (true, 13585225242584565977528847264254093322886469513965391404282390479911908326294, 1008000400177133318644584698442220861001602750385656218504231984346484736726, 8431848365919031386106261671332267356314708032219450092045900237577501613834, (-1750686328690136740270171549333888063200530362637588506246165265369090158682), (6175217082298139933745843893126508602109401475598387762462552348459527224847, 9384325887947268208480522376900921628678416403042404829369712656540874205152, 120503211474263114153389530804269074886889736460165487206984086971628922823, 1844718171921759263816666403360274042294054855272737607449242034903597364816, 0));
  (true, 19333135349551201199475748307299692920163463592329499702068992976401027453605, 3925887349222549516201627632077420186526434419922260907112580744082973855459, 17076296376670195352960730181487655359123881508547733066946494293450887373347, (-12885532223970935226535055531073697584947332788003886951750719908623847161213), (18427652915442840563422982552658796096626156739942905852478365083185284616625, 13291647649442814931662522710436114241167451557446935237495743794012638995257, 902572263845367023306178189426908539173660406590376496151538816917871980913, 17742587027976726210273515420030945537014582432274742844571655274465287859563, 0));
  (true, 12019109365139513362039681194335316739994418336439350863289517371032185926159, 10451397912452421119610964932163600440621824815914565838895426513833322832740, 6599844070491412007433664066486591092494856162973435649417172258168063733856, 1056803472251962510889643289043516336780847600611410351485597435479660356130, (10662371638262337720184088188590789495875847978421818557678424438584992762031, 7029241739048422387946619383129030350418497429717283152475891081317774388788, 16550651372628813822648375708403170986858490506595700129616701520537633205291, 20256854482855296806130269489619949846842590428071565867105645068202979471468, 1));
  (true, 5727204950572680850434378741003241224769791075363958030597951599996419504499, 4476601897191747875275990999524591185599713362208144925797627032192256135930, 1498561430349660442854345352621566781417155476669632925167107035542776195368, 3777391758152965159676990480711887459283349760211312943289476417610476897478, (5879201177478347122929891206274165417338267261760786705557214597734793160492, 12986850340268904592524076001293649026720883824353285658485205658565438441642, 13372801501547265044860348145935962032217003782275092610423764264531028989649, 11101871749403956816925775761646380230419903060186872687280463897239878318158, 1));
  (true, 7634588524821248398460434959009279243247523769230270632801832245647454726821, 932074502312053438852806625353488768181799352256319075570124023299903862616, 2662933808100349244773892784348492688136100636835921879983963667069234405429, (-2498826853635434963199930827369905927720259309133431000843394245503966482014), (15807015859317331015201676420077911423647661201290709032900860866389793169031, 3616684712438828313953429670250576858842362884121367360410977078651946757784, 326242760979481280689937133150037357959442864381973025334400790488325264975, 26355616659708022815435457967659871774775950558452932037162787073612419651880, 1));
  (true, 12971178748329200406890723097238422688745004883528798544997441409276535267600, 5829107176004860239710094186733429148295367602314484096296744489024099899381, 7686842617119080924403199138615290779056910635888662926523341157465545974843, (-6390693138312091604554235255443812825424244523834201698369351885817314845518), (3419590070066348852482437870247363744044261406435148895613929702569946318675, 10135320682821517670466409973617186056654939633249894579462750261954844211726, 4420344237786152401762705981197833634243719019557597476786465033589647489978, 651701546356406246040196095791319631378219200962329587839874906356467981584, 0));
  (true, 9517743479927627405373324806040739780600044193763219120647741789902145014190, 8966411382048745331138949182990638438449472827348807694983294022345498072959, 4138634676164518207620227323122460090885750614686770648641222461804924621477, 4254891244590335565368738510126034164391244966966290388653282575489723330816, (12839067661011541682323737406962101292483106192247411243158478645137178669220, 940136940677121860624122226938439409368674736547233913294351178968309474738, 19425858855133553186214967264308526255818806836974823737664716335888448289714, 15809594733615937720463865356197861341637964603826875957692566332269269975342, 1));
  (true, 18602060466671402870486220764721080590676356252344244021827102008538438707204, 9208483362866146504008611938296088422271975023205834726239258499785248731671, 15809247714941018156733631374976631142393936083244461376446146256187793506537, (-1714430674659412818156083388699122920754080352121867697903297130769662762270), (3678527058813228338011368125374307997347658801714157490717951159420540266224, 20694379110071579200176316971071680872259767310058011024042428796926991874953, 5363706570556382460192040615423898151895863845145637270159446021401285018817, 881814897931452174265921138827203751471144518279997481712642152595408958099, 0));
  (true, 21158430930853138179139598612085875063786751255325242404213429120153113578194, 12423985108569275132026160391071595856795891731973940239628320811773669611557, 20452952851306889120501038935562314269413346846736744949530460862405792873696, (-7573351110797873115981060490166256752542456982239432024926251137609734255275), (16532348978088133730912662556267799952797113480020876582888126667241835248147, 2677339056438555748967673155924789676644080374059746927953409965251586291210, 7546851894692956501604251147207141611353309222849518876477639914388420314442, 24046978767988099007052444413026660910500630222288923120239676883566558830688, 1));
  (true, 17120726603979899163322053650369988125320000663393461897266030528940789824280, 16181205843596321316357693547834843318755374167219451518021630001839230108496, 13391631350424347481171620311817913432814407699691560678740002414425312957165, 8639172929665992536955596306305003576297363759980696886250095277291654358048, (3889131081125286716335465032165225072182541001604109467507863608644742575620, 907617653084310029828574927295440106040025538000622597033489236454598007855, 19551869051752156409394613425411414151072461206371987559823818250007645983182, 989526641586141470881425692164280337101757587982507302650318844263264308965, 0));
  (true, 413916842494658199166373792413210926273382471584015338625525270963558011503, 182338899623520504182188892867868578449738215676475233308786983267347667512, 7827359806993543956083718535510194138675833983519984679854321229693207551, (-175959756351131241187685999730982269497172426092006617680418022614029627847), (16803349889857242045157577421389183558792743221122555807891051264959312902818, 18826291999197521927575926507713852253673364570868392735825626308758496775960, 4247597547031187413778048925196765021094493528681565798561267304052476714343, 6505670772262769233355148400719506563762708012782637008593409415538278987664, 0));
  (true, 1876914483228565820101463241614217491418234944985173103516770353895578076438, 1624712666116822872179477932224396621024764644362138878052007780102175875256, 160945216022136167809163652002797991223091905781135193020607899906197997442, 429293436316630018222507192537400103707518980218176608106427140225200390839, (21143515704034502611065728677760388556651387281422000261877156955094166800735, 18712903207388017451468551071506285849894892111810477053174044255540078135999, 16401178690998653308580579330773110388754733436214153544861383831577471570035, 23747716484284090763820630295678059449122539949196061543842071225946951650021, 1));
  (true, 7135832066854058513364733263659886659462072320854915343132237059660958767595, 4544858569511820205990355541071904183087366986499749058248718792659539390225, 2326367611346951136199592008725727947931316848724678239081534864907066900600, (-582403407483253000632572846928162287655402130711330708909173392096266413520), (3193482126953113094252684750739578635817347915957191183178323603462580257579, 18401907280304445018386594227525498505199859701751597757063176602946107259421, 8878966211580591526659417396931281521918273710676677622999050491790831665188, 5943024833004596241715554724244737051191546371182212905405045781775562184921, 1));
  (true, 12894382346785530733346858923277988714765223145007810439592920775720494523071, 9264914827607039226697765977702311032547497252856170999007591091792428358579, 7596091521764214965298239402181467317125229901558777418234795823817626979350, 1229389619336274090131222653736451587946929170668187660820208053525231028891, (21319718991744616112979091571341625399265459248622597720615947684468684222289, 11080198457804637626595952602591036273180043664217446244537041670502412290542, 11300370265006561039754057972453911707243092597136600370297975249061837025693, 37294690116611276193131617138105365802730646810326339414829744216100073571096, 1));
  (true, 6360665922709505393478306483076020686686032811209859434864904125493677727708, 3963841771456599034380787506911523903677091641176118212989150926312564009460, 1848392820621067081758959582695319488716523442242029592309029010725236594484, (-1980019233834368883832975551392416670039796140016824244127775788769123567947), (21856133620796678051068372531530537877763235212503881523265166363580487852092, 10606323027375012221070601779157908839811395493558544072400885175850888434469, 8500380121507333498220207364869134791410438246900466367894860659101755805284, 37023038648668245237772507938697692328788486956418032610598580545890881171607, 1));
  (true, 13749661697467489929232724391323135371399061839059530478643007670605363144394, 12848666946605851403529967678183094183341048452605622004270079963043318169767, 8637202990745066742136229601384187806941035043449900429284109938442379572935, (-195425636947629485088724614581047953414454984754555552320822421125922118737), (15532135662791483995581206803000737843263331774043544625713533272353484962534, 16290231707680383793413905768493349191178831865008079156734799033695988279100, 19113623065441096904685039787690063457884648870385039169522383171576103628600, 13600203523638200211747496829296198530049076666229343515718152209582444726192, 0));
  (true, 7632562885516855663907818304487093084449914251198307909896541798042475873143, 7240895021207220853873906256785786256433494542775307342983691670470877379885, 2661520915245314091621990192977542196407253186562451387748910061230760999277, 4213659632749293878990051056445930882713041480569282538975983580312385156913, (2180824576330397628189114567564999133062540159851599518653848106393396232820, 4941541264365562749183808209374445862916192216572937734419352540764734816595, 19699473488191980221572491027154143113599178402621779363024599699097859952235, 487050183217663129662532702511653124300993802627273946442549963483565765825, 0));
  (true, 9925837455651351353289038030064252925978893907852314558504813391860451947340, 3936796441316736637356490422948159287271491942652421287495691693481446393412, 4501149305263188536353470885631980815039749653822587585928923246393724410876, 587399173557698893714317693016961458421586460303200208950936840385604104862, (10538207789700829814329083960794780637151173434918239881714874716744704537098, 6617408308401192781366166313232215409403528221107818551106453899944292780025, 3443201984489139385211292703499606129723850177155093568161466842597518742848, 17200841985519645253547782155680090198381408417421991976620401380484737009227, 1));
  (true, 14844156676579438503158999083381032969609064993050490232500957830259836864529, 5009046142138300857110706692373269177868906133016091895483912909415217325837, 10067002122053935947620365761622030344219496311401403606657878047676621287911, (-3870976821011591588211898219111036351608261335848365573594579352740603587690), (10720143755754882664440431547006938997647855424915231737508932015895409916322, 2274847698101323765721192615576142602247110482312793273614529067270284150680, 2492355017895978882342972360834540400981689219595026243476059070338256955732, 5732373975078025499521912815097828445984376880646786319954626677972849224024, 0));
  (true, 15711921390036518887835185509992691411539750891654941738073239245899964509370, 9399134338083568548733047039934188411659260480553593441815886183686914207357, 11278405270452072817731800301388926793462298901869341417868459221789782378347, 2248536446563197758590783437017084726677228911271871256865996374801615058226, (13800665600177268792280739579694661261077044728987813871958470480470345738481, 13767142361539597315305835204172696890519046801214888885135291147711314315255, 7832998033577539352212615803132307211031328884870644210736512148140915735798, 23791271430158288006993366469477419966151558941776896124235796038888240239599, 1));
  (true, 19649913697567074755787560221198891514389103661214917699466192515220338376375, 8942803872700243725267577388977967724463530945810313302214495814109261155317, 17640479895195372082944119519798035568512883137416144081732398111430325568179, 7571539914533738203693087613170093593885156049959145023902787960894299537520, (11223444179297919285713948823684413922308086673689966323626923458582876272059, 16236816078280798923888553696213305771281746112477458258447634874221191550261, 4533535458259524334456454718224006855626790912414620229537343682628272820108, 6012061509143877271749478796261810552140767776865135676106582085945566628485, 0))
].
Definition ex_last0 : Z * Z * Z * Z * Z := (20470113227679391100669552757912884996641132931754990655123346177473859791449, 16715520843643974474297080170900944491439035217517992496834475499954151943565, 106593746549866542778746643175350521147350225632734246595680433257163433233, 32309733871826632887869341734211910654417352422071887981290046541105096984179, 1).
Definition ex_walk1 : list (bool * Z * Z * Z * Z * (Z * Z * Z * Z * Z)) := [
  (false, 16416182153879456416684804308942956316522233367973367747016778420983919656438, 3, 12312136615409592312513603231707217237391675025980025810262583815737939742329, (-1026011384617466026042800269308934769782639585498335484188548651311494978526), (16416182153879456416684804308942956316522233367973367747016778420983919656438, 1, 0, 3, 0));
  (false, 21142052773935663566942551003941686165218027822389943310551911602782320769636, 18903482480224828601030986779994919394783177817666302254140532727193604452851, 20421300974824220490796782219716401409585595055717558879510369161778378016108, (-1586199982135410709245044180435191072054709990290361191042182417512464923764), (21142052773935663566942551003941686165218027822389943310551911602782320769636, 2137523717953054220922500561060280770380499136454865592059476356898947871934, 85500948718122168836900022442411230815219965458194623682379054275957914877, 19159985326379195107541686847322153087228837714040886125187669890021478197482, 0));
  (false, 7790117279743201391352217075161109145090987528568760938134199078502047127619, 1624643545116101190315692241355737064979530579470885543367047358851780309732, 2772535355509519721464103695917868468446210606681671661793171908972011938038, (-328324063166954529029292680279707619329401312945831616992787471196562053116), (7790117279743201391352217075161109145090987528568760938134199078502047127619, 9124316945430082504966873780541924622394633819557863515148416252475541617945, 413980062665682488171201283872105210843661913982227977281889824961360076253, 2866583733113148654829296092972052697510516321417569475212716833735860538491, 0));
  (true, 20522751404859359746352983279302201319840755908747292077647748579042560195659, 3687364918729535833251562885909184209483936488495213422107418679742953175089, 19242445713517645671228678065374051492846702968234564365777229640427467731316, 2164611982400715406516360912661061643879505033090748864318204696739032464339, (7460228494492318376825991074923955587327805785423485491717518377853095330767, 15102273779043179337495825727002903712829249915883142064662513208585514372636, 706597292584577467043902165706817812189987614988060271900230914509739232491, 12824690755591822011034788990235263314993562025841320591170315176032242910118, 1));
  (false, 6175217082298139933745843893126508602109401475598387762462552348459527224847, 1483208537498969921356497810947466817633385645892241145828289773988710596347, 1742182149420859376977777583379438305988599613192991838354094559741629744680, (-5378154000316236454687568927973302300642637282380667840586271513111587937748), (6175217082298139933745843893126508602109401475598387762462552348459527224847, 9384325887947268208480522376900921628678416403042404829369712656540874205152, 120503211474263114153389530804269074886889736460165487206984086971628922823, 1844718171921759263816666403360274042294054855272737607449242034903597364816, 0));
  (false, 3889131081125286716335465032165225072182541001604109467507863608644742575620, (-57666080513670327757302414584069962116115626031133455376821135905759673640581), 691025801145259078172391676631590765775601809287703696178255144963969452590, 1524145369464980468592377465412539775515225014051144096574312474805481362689, (3889131081125286716335465032165225072182541001604109467507863608644742575620, 907617653084310029828574927295440106040025538000622597033489236454598007855, 19551869051752156409394613425411414151072461206371987559823818250007645983182, 989526641586141470881425692164280337101757587982507302650318844263264308965, 0));
  (false, 8747694192778351174046134044992960747061336285801048876396846308667699972207, (-7333513015296372042711999454264373493719466742192076287074298900060451117322), 3496039135641129277888758007345245466098884301238471198320124511232022799253, 1264182346193670405653144289167231200706708084269570885681616784703191895109, (8747694192778351174046134044992960747061336285801048876396846308667699972207, 16695223727051132221744393448327278367869448520491576708397820277900907082321, 6699071880638856855823632039505932876107095121501572792820320125334446308441, 12763702626620198524758896664253425134601818622312642091386661475942887808001, 1));
  (false, 4212715604223659552733709761005265622596002202771441083530691793968950102588, (-2790582602766871660759909357305991707874588047182018294689620098569364293012), 810799334874989436041948915834985177512432982030835346917605771712942797069, 1681203624165047162519327517415717077473978877167332296081540315437808589010, (4212715604223659552733709761005265622596002202771441083530691793968950102588, 11449751277460849616198090480733551447951116618018210647689769249617570802980, 3656279244689957868967480320938964957449059375930002009300158679028831065952, 8178255131303001946142531605510903164472590080607987733210855938517128904844, 1))
].
Definition ex_last1 : Z * Z * Z * Z * Z := (1093075136054294473767553383905355802641169984842302417736406246925995644110, 1262570159508071229012691505626600911495376427626705784900969535413415965914, 2030129683471924208098357219938909338908923375830760996918241724323018929, 2059625126717597552240161769722421977342468586707840111055818570864828076246, 1).
Definition ex_walk2 : list (bool * Z * Z * Z * Z * (Z * Z * Z * Z * Z)) := [
  (false, 16416182153879456416684804308942956316522233367973367747016778420983919656438, 3, 12312136615409592312513603231707217237391675025980025810262583815737939742329, (-1026011384617466026042800269308934769782639585498335484188548651311494978526), (16416182153879456416684804308942956316522233367973367747016778420983919656438, 1, 0, 3, 0));
  (false, 21142052773935663566942551003941686165218027822389943310551911602782320769636, 18903482480224828601030986779994919394783177817666302254140532727193604452851, 20421300974824220490796782219716401409585595055717558879510369161778378016108, (-1586199982135410709245044180435191072054709990290361191042182417512464923764), (21142052773935663566942551003941686165218027822389943310551911602782320769636, 2137523717953054220922500561060280770380499136454865592059476356898947871934, 85500948718122168836900022442411230815219965458194623682379054275957914877, 19159985326379195107541686847322153087228837714040886125187669890021478197482, 0));
  (true, 21635407612264672047965658712438282681626331733729169423395059925778107889692, 2975427312378857919819657351336101634288745260385016197819697678325630798686, 21385492900897545213431856887501142526759758313336733560408694672552311097232, (-7645056223444428543847603265296962700140922805419964079950475838506578842068), (7790117279743201391352217075161109145090987528568760938134199078502047127619, 9124316945430082504966873780541924622394633819557863515148416252475541617945, 413980062665682488171201283872105210843661913982227977281889824961360076253, 2866583733113148654829296092972052697510516321417569475212716833735860538491, 0));
  (false, 20515521574497058241549135939098113513261860641120929235963256180545526078771, (-14232158223618478637223906058787008870078275199765782373952471779966062548957), 19228890502451146905602251118984449928015980269280561980618711856489034185029, 5904760112458377091236674406714340074247820953494484938950791596511846109793, (20515521574497058241549135939098113513261860641120929235963256180545526078771, 5926129748097670579600964763217237711120486556054020812009161614759988498093, 5274354491495471926290100072623347552075316316043761842227576690401102814204, 1590905250867937141646394159083033786147673748365503152730258291237245893655, 0));
  (false, 18427652915442840563422982552658796096626156739942905852478365083185284616625, 15034870236440625140354980851750219919493601212503613356117038823711671916824, 15514191521006919161908328028560201752239651142554742172148028292470421847145, (-12209505800902849764345178064229090493751867740169007842093845544859566186014), (18427652915442840563422982552658796096626156739942905852478365083185284616625, 13291647649442814931662522710436114241167451557446935237495743794012638995257, 902572263845367023306178189426908539173660406590376496151538816917871980913, 17742587027976726210273515420030945537014582432274742844571655274465287859563, 0));
  (false, 21143515704034502611065728677760388556651387281422000261877156955094166800735, (-25455819588711869161921107696641271717141660359446399090742080268785463060084), 20424127187564784068100875894653787657788455116749840716601630682032329635824, (-1020123727002797083695528171119318857215203857856476103909279439946455934757), (21143515704034502611065728677760388556651387281422000261877156955094166800735, 18712903207388017451468551071506285849894892111810477053174044255540078135999, 16401178690998653308580579330773110388754733436214153544861383831577471570035, 23747716484284090763820630295678059449122539949196061543842071225946951650021, 1));
  (false, 13358561763403801891199809015616525052418452367257511826069493581098806305455, (-31012646982626607591385506852670272949825560963454537731423645132874105485601), 8152832250242606652298085139729121223484851823473913060946727951200641815073, 8542035199852308401160425787501739838774836923232052127736093616354818948726, (13358561763403801891199809015616525052418452367257511826069493581098806305455, 10894784539529500231539178439073186349669192645407073818077389989052080988336, 18280435696233669682129038905300003490628134026339485030066321586524580298335, 23828660106074401455001609863229737522058841115563917358775319626699635409404, 1));
  (false, 4366705926266636134942689198147208529719296020102468630822642368054007809634, (-3353378826039409551757364969349788263525565164038736624212213805188799744236), 871158126220565876832074566655433630934930316355216043574048420085134643128, (-1814174201935657388515202021891720235385689094557774853450184393570346598293), (4366705926266636134942689198147208529719296020102468630822642368054007809634, 1841654376298856838557330562783765660587204485227599392878477270568156043380, 1648496696391377167724141335501983478723273606559136017464382908109248803348, 1592111263134721951415059037156162172644255655638671428180934919138946665808, 0))
].
Definition ex_last2 : Z * Z * Z * Z * Z := (3367298414382160509551317472642300761120883611855611946086013986037878709200, 15167854429282393016104482240098011418030311236659063825727957964665710024788, 10417683120269825458440735402060081296176467425651501938942738552340618116196, 2642120570450721912101165270881481849793235107853455747128165428018151843292, 0).

Definition ex_multiples : list N := map N.of_nat (seq 1 30) ++ [18; 36; 72; 144]%N ++ [20; 40; 80; 160]%N.
Lemma ex_walk0_ok : walks ex_walk0 ex_last0 1 1 2 = Some (map N.of_nat (seq 1 30)).
Proof. vm_compute. reflexivity. Qed.
Lemma ex_walk1_ok : walks ex_walk1 ex_last1 1 1 2 = Some [1; 2; 4; 8; 9; 18; 36; 72; 144]%N.
Proof. vm_compute. reflexivity. Qed.
Lemma ex_walk2_ok : walks ex_walk2 ex_last2 1 1 2 = Some [1; 2; 4; 5; 10; 20; 40; 80; 160]%N.
Proof. vm_compute. reflexivity. Qed.
Lemma ex_fine (W : PF) (HW : pf_n W = fq_mod) : Forall (fun m => fine W (smul m (G W))) ex_multiples.
Proof.
  pose proof (walks_start W HW _ _ _ ex_walk0_ok) as F0. pose proof (walks_start W HW _ _ _ ex_walk1_ok) as F1. pose proof (walks_start W HW _ _ _ ex_walk2_ok) as F2.
  apply Forall_app. split; [exact F0|]. apply Forall_app. split.
  - do 5 (apply Forall_cons_iff in F1; destruct F1 as [_ F1]). exact F1.
  - do 5 (apply Forall_cons_iff in F2; destruct F2 as [_ F2]). exact F2.
Qed.
