(** Model of /repo/src/jaxrts/math.py: the Fermi integrals, their rational
    approximations and the approximations of the inverse.  Arrays are treated entry by
    entry; [jnp.where] selects, a nan of the branch not selected is dropped.  The literals
    are the decimal fractions of the source. *)
From Coq Require Import Reals List.
From Coquelicot Require Import Coquelicot.
From Verif Require Import M_Const M_PlasmaState.
Import ListNotations.
Open Scope R_scope.

(** jax.scipy.special.gamma, for positive arguments *)
Definition gamma (s : R) : R :=
  RInt_gen (fun t : R => Rpower t (s - 1) * exp (- t)) (at_right 0) (Rbar_locally p_infty).
(** jnp.log *)
Definition lno (x : R) : option R := if Rlt_dec 0 x then Some (ln x) else None.

(** math.py:11-25; the quadrature is exact *)
Definition fermi_integral (x n : R) : R :=
  let norm := gamma (n + 1) in
  RInt_gen (fun t : R => Rpower t n / (exp (t - x) + 1)) (at_right 0) (Rbar_locally p_infty) / norm.

(** math.py:28-44 *)
Definition R1_mk (a b : list R) (x : R) : option R :=
  let powers1 := seq 0 (length a) in
  let powers2 := seq 0 (length b) in
  let numerator := sum (map2 Rmult a (map (pow x) powers1)) in
  let denumerator := sum (map2 Rmult b (map (pow x) powers2)) in
  qdiv numerator denumerator.

(** math.py:47-57 *)
Definition F_n (x : R) (a b c d : list R) (n : R) : option R :=
  let norm := gamma (n + 1) in
  obind (if Rlt_dec x 2
         then obind (R1_mk a b (exp x)) (fun r => Some (exp x * r))
         else obind (R1_mk c d (/ x ^ 2)) (fun r => Some (Rpower x (n + 1) * r)))
        (fun v => qdiv v norm).

(** math.py:60-68 *)
Definition X_n (x : R) (a b c d : list R) (n : R) : option R :=
  let norm := gamma (n + 1) in
  let x := x * norm in
  if Rlt_dec x (4 * norm)
  then obind (R1_mk a b x) (fun r => lno (norm * x * r))
  else obind (R1_mk c d (Rpower x (-1 / (1 + n)))) (fun r => Some (Rpower x (1 / (1 + n)) * r)).

(** math.py:71-157 *)
Definition r0_upper : list R :=
    [127456123 / 1000000;
     303620672 / 10000000;
     229733586 / 100000000].
Definition r0_lower : list R :=
    [112955041 / 1000000;
     -181545791 / 10000000;
     1 / 1].
Definition r1_upper : list R :=
    [223158685 / 10000000;
     122487649 / 1000000;
     135023156 / 1000000;
     305460708 / 10000000].
Definition r1_lower : list R :=
    [28056686 / 1000000;
     599641578 / 10000000;
     278629074 / 10000000;
     1 / 1].
Definition r2_upper : list R :=
    [740135089 / 10000000;
     294367987 / 1000000;
     294232354 / 1000000;
     649306737 / 10000000].
Definition r2_lower : list R :=
    [278728584 / 10000000;
     620649704 / 10000000;
     27114881 / 1000000;
     1 / 1].
Definition r3_upper : list R :=
    [156549383 / 1000000;
     612130579 / 1000000;
     639532875 / 1000000;
     145238686 / 1000000].
Definition r3_lower : list R :=
    [254019873 / 10000000;
     593035998 / 10000000;
     269857305 / 10000000;
     1 / 1].
Definition r4_upper : list R :=
    [376286772 / 1000000;
     144993277 / 100000;
     148747498 / 100000;
     333722383 / 1000000].
Definition r4_lower : list R :=
    [272967945 / 10000000;
     611014417 / 10000000;
     271844466 / 10000000;
     1 / 1].
Definition rS_upper : list R :=
    [197450048 / 100000;
     144437558 / 1000000;
     1 / 1].
Definition rS_lower : list R :=
    [103906494 / 10000000;
     669052603 / 1000000000].
Definition inverse_fermi_12_fukushima (x : R) : option R :=
  let norm := gamma (1 / 2 + 1) in
  let x := x * norm in
  obind (if Rlt_dec x (122 / 100) then obind (R1_mk r0_upper r0_lower x) (fun r => lno (x * r)) else Some 0) (fun term1 =>
  obind (if Rle_dec (122 / 100) x then if Rlt_dec x (343 / 100) then R1_mk r1_upper r1_lower ((-550848552 / 1000000000) + (45211461 / 100000000) * x) else Some 0 else Some 0) (fun term2 =>
  obind (if Rle_dec (343 / 100) x then if Rlt_dec x (105 / 10) then R1_mk r2_upper r2_lower ((-482411581 / 1000000000) + (14063612 / 100000000) * x) else Some 0 else Some 0) (fun term3 =>
  obind (if Rle_dec (105 / 10) x then if Rlt_dec x (343 / 10) then R1_mk r3_upper r3_lower ((-442839571 / 1000000000) + (420121106 / 10000000000) * x) else Some 0 else Some 0) (fun term4 =>
  obind (if Rle_dec (343 / 10) x then if Rlt_dec x 117 then R1_mk r4_upper r4_lower ((-416448071 / 1000000000) + (121259929 / 10000000000) * x) else Some 0 else Some 0) (fun term5 =>
  obind (if Rle_dec 117 x
         then obind (R1_mk rS_upper rS_lower (1 + (-111632691 / 1000000) * Rpower x (-4 / 3))) (fun r =>
              obind (qdiv r (- (-111632691 / 1000000) * Rpower x (-4 / 3))) sqrto)
         else Some 0) (fun term6 =>
  Some (term1 + term2 + term3 + term4 + term5 + term6))))))).

(** math.py:160-222 *)
Definition a_12 : list R :=
    [575834152995465 / 100000000;
     130964880355883 / 10000000;
     107608632249013 / 10000000;
     393536421893014 / 100000000;
     64249323371564 / 100000000;
     416031909245777 / 10000000000;
     777238678539648 / 1000000000000;
     1 / 1].
Definition b_12 : list R :=
    [649759261942269 / 100000000;
     170750501625775 / 10000000;
     16928813485616 / 1000000;
     795192647756086 / 100000000;
     183167424554505 / 100000000;
     195155948326832 / 1000000000;
     817922106644547 / 100000000000;
     902129136642157 / 10000000000000].
Definition c_12 : list R :=
    [485378381173415 / 10000000000000000000000000000;
     164429113030738 / 10000000000000000000000000;
     376794942277806 / 100000000000000000000000;
     469233883900644 / 1000000000000000000000;
     340679845803144 / 10000000000000000000;
     132212995937796 / 100000000000000000;
     260768398973913 / 10000000000000000;
     248653216266227 / 1000000000000000;
     108037861921488 / 100000000000000;
     191247528779676 / 100000000000000;
     1 / 1].
Definition d_12 : list R :=
    [728067571760518 / 10000000000000000000000000000;
     245745452167585 / 10000000000000000000000000;
     562152894375277 / 100000000000000000000000;
     696888634549649 / 1000000000000000000000;
     502360015186394 / 10000000000000000000;
     192040136756592 / 100000000000000000;
     366887808002874 / 10000000000000000;
     324095226486468 / 1000000000000000;
     116434871200131 / 100000000000000;
     134981244060549 / 100000000000000;
     20131183697593 / 100000000000000;
     -214562434782759 / 10000000000000000].
Definition fermi_12_antia (x : R) : option R := F_n x a_12 b_12 c_12 d_12 (1 / 2).

(** math.py:225-288 *)
Definition a_neg12 : list R :=
    [171446374704454 / 10000000;
     388148302324068 / 10000000;
     316743385304962 / 10000000;
     114587609192151 / 10000000;
     183696370756153 / 100000000;
     114980998186874 / 1000000000;
     198276889924768 / 100000000000;
     1 / 1].
Definition b_neg12 : list R :=
    [967282587452899 / 100000000;
     287386436731785 / 10000000;
     326070130734158 / 10000000;
     177657027846367 / 10000000;
     481648022267831 / 100000000;
     613709569333207 / 1000000000;
     313595854332114 / 10000000000;
     435061725080755 / 1000000000000].
Definition c_neg12 : list R :=
    [-446620341924942 / 100000000000000000000000000000;
     -158654991146236 / 100000000000000000000000000;
     -444467627042232 / 1000000000000000000000000;
     -684738791621745 / 10000000000000000000000;
     -664932238528105 / 100000000000000000000;
     -369976170193942 / 1000000000000000000;
     -112295393687006 / 10000000000000000;
     -160926102124442 / 1000000000000000;
     -852408612877447 / 1000000000000000;
     -745519953763928 / 1000000000000000;
     298435207466372 / 100000000000000;
     1 / 1].
Definition d_neg12 : list R :=
    [-223310170962369 / 100000000000000000000000000000;
     -794193282071464 / 1000000000000000000000000000;
     -222564376956228 / 1000000000000000000000000;
     -343299431079845 / 10000000000000000000000;
     -333919612678907 / 100000000000000000000;
     -186432212187088 / 1000000000000000000;
     -569764436880529 / 100000000000000000;
     -834904593067194 / 10000000000000000;
     -47877084400944 / 100000000000000;
     -499759250374148 / 1000000000000000;
     186795964993052 / 100000000000000;
     416485970495288 / 1000000000000000].
Definition fermi_neg12_antia (x : R) : option R := F_n x a_neg12 b_neg12 c_neg12 d_neg12 (-1 / 2).

(** math.py:291-348 *)
Definition a_32 : list R :=
    [432326386604283 / 10000000000;
     855472308218786 / 10000000000;
     595275291210962 / 10000000000;
     177294861572005 / 10000000000;
     22187660779646 / 10000000000;
     990562948053193 / 10000000000000;
     1 / 1].
Definition b_32 : list R :=
    [325218725353467 / 10000000000;
     701022511904373 / 10000000000;
     550859144223638 / 10000000000;
     1959420745764 / 100000000;
     320803912586318 / 100000000000;
     220853967067789 / 1000000000000;
     505580641737527 / 100000000000000;
     199507945223266 / 1000000000000].
Definition c_32 : list R :=
    [280452693148553 / 1000000000000000000000000000;
     860096863656367 / 10000000000000000000000000;
     162974620742993 / 10000000000000000000000;
     16359884375205 / 10000000000000000000;
     912915407846722 / 10000000000000000000;
     262988766922117 / 100000000000000000;
     385682997219346 / 10000000000000000;
     278383256609605 / 1000000000000000;
     902250179334496 / 1000000000000000;
     1 / 1].
Definition d_32 : list R :=
    [701131732871184 / 1000000000000000000000000000;
     210699282897576 / 1000000000000000000000000;
     394452010378723 / 10000000000000000000000;
     384703231868724 / 100000000000000000000;
     204569943213216 / 1000000000000000000;
     531999109566385 / 100000000000000000;
     639899717779153 / 10000000000000000;
     314236143831882 / 1000000000000000;
     470252591891375 / 1000000000000000;
     -215540156936373 / 10000000000000000;
     234829436438087 / 100000000000000000].
Definition fermi_32_antia (x : R) : option R := F_n x a_32 b_32 c_32 d_32 (3 / 2).

(** math.py:351-408 *)
Definition a_52 : list R :=
    [661606300631656 / 10000000000;
     120132462801652 / 1000000000;
     767255995316812 / 10000000000;
     210427138842443 / 10000000000;
     244325236813275 / 100000000000;
     102589947781696 / 1000000000000;
     1 / 1].
Definition b_52 : list R :=
    [199078071053871 / 10000000000;
     379076097261066 / 10000000000;
     260117136841197 / 10000000000;
     797584657659364 / 100000000000;
     110886130159658 / 100000000000;
     635483623268093 / 10000000000000;
     116951072617142 / 100000000000000;
     331482978240026 / 100000000000000000].
Definition c_52 : list R :=
    [842667076131315 / 100000000000000000000000000;
     231618876821567 / 100000000000000000000000;
     354323824923987 / 1000000000000000000000;
     277981736000034 / 10000000000000000000;
     114008027400645 / 100000000000000000;
     232779790773633 / 10000000000000000;
     239564845938301 / 1000000000000000;
     124415366126179 / 100000000000000;
     318831203950106 / 100000000000000;
     342040216997894 / 100000000000000;
     1 / 1].
Definition d_52 : list R :=
    [294933476646033 / 10000000000000000000000000;
     768215783076936 / 100000000000000000000000;
     112919616415947 / 100000000000000000000;
     809451165406274 / 10000000000000000000;
     281111224925648 / 100000000000000000;
     399937801931919 / 10000000000000000;
     227132567866839 / 1000000000000000;
     53188604522268 / 100000000000000;
     370866321410385 / 1000000000000000;
     227326643192516 / 10000000000000000].
Definition fermi_52_antia (x : R) : option R := F_n x a_52 b_52 c_52 d_52 (5 / 2).

(** math.py:411-456; the first value of c, lines 440-450, is overwritten *)
Definition a_inv : list R :=
    [1999266880833 / 100000000;
     5702479099336 / 1000000000;
     6610132843877 / 10000000000;
     3818838129486 / 100000000000;
     1 / 1].
Definition b_inv : list R :=
    [1771804140488 / 100000000;
     -2014785161019 / 1000000000;
     9130355392717 / 100000000000;
     -1670718177489 / 1000000000000].
Definition c_inv : list R :=
    [34873722 / 1000000;
     -26922515 / 1000000;
     1 / 1].
Definition d_inv : list R :=
    [26612832 / 1000000;
     -2045293 / 100000;
     11808945 / 1000000].
Definition inverse_fermi_12_antia (x : R) : option R := X_n x a_inv b_inv c_inv d_inv (1 / 2).
