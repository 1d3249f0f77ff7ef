(** Dense output of Runge--Kutta steps.  Models the interpolations of the solvers: [from_k] in
    [/repo/diffrax/_local_interpolation.py] and the classes in [/repo/diffrax/_solver/*.py] that
    [interpolation_cls] refers to.
    All operations act componentwise on arrays and PyTrees; one component is modelled.  Numbers are exact
    reals; coefficients are the exact rationals written in the source.  [evaluate(t)] only; [evaluate(a, b)]
    is the difference (see [Model_Interp]). *)
From Coq Require Import Reals QArith Qreals List.
From Verif Require Import Model_RK Model_Tableaus Model_Orders Model_Interp.
Import ListNotations.
Open Scope R_scope.

(** [interpolation_cls(t0=t0, t1=t1, **dense_info).evaluate(t)] with [dense_info = dict(y0=y0, y1=y1, k=ks)]
    ([runge_kutta.py:1198]).  [ks]: for each term the values of its stages, at this component. *)
Definition interpolation : Type := R -> R -> R -> R -> list (list R) -> R -> R.

(** Solvers with one tableau pass [ks] without the enclosing list ([runge_kutta.py:1185-1198]). *)
Definition only_k (ks : list (list R)) : list R := hd [] ks.
(** [explicit_k, implicit_k = self.k] *)
Definition explicit_k (ks : list (list R)) : list R := nth 0 ks [].
Definition implicit_k (ks : list (list R)) : list R := nth 1 ks [].

(** [_local_interpolation.py:69-80] [ThirdOrderHermitePolynomialInterpolation.from_k] *)
Definition hermite_from_k : interpolation := fun t0 t1 y0 y1 ks t =>
  let k := only_k ks in third_order t0 t1 y0 y1 (hd 0 k) (last k 0) t.

(** [sil3.py:87-94] [Sil3.interpolation_cls] *)
Definition sil3_interpolation : interpolation := fun t0 t1 y0 y1 ks t =>
  let k0 := hd 0 (explicit_k ks) + hd 0 (implicit_k ks) in
  let k1 := last (explicit_k ks) 0 + last (implicit_k ks) 0 in
  third_order t0 t1 y0 y1 k0 k1 t.

(** [dopri5.py:36-47] [_Dopri5Interpolation] *)
Definition dopri5_c_mid : list Q :=
  [(6025192743 # 60171106304); (0 # 1); (51252292925 # 130801643196); (-2691868925 # 90256659456); (187940372067 # 3189068634112); (-1776094331 # 39487288512); (11237099 # 470086768)].
Definition dopri5_interpolation : interpolation := fun t0 t1 y0 y1 ks t =>
  fourth_order (map Q2R dopri5_c_mid) t0 t1 y0 y1 (only_k ks) t.

(** [tsit5.py:117-155] [_Tsit5Interpolation.evaluate] *)
Definition tsit5_b (t : R) : list R :=
  [Q2R (-10530884977290216 # 10000000000000000) * t * (t - Q2R (13299890189751412 # 10000000000000000))
     * (t * t - Q2R (14364028541716351 # 10000000000000000) * t + Q2R (7139816917074209 # 10000000000000000));
   Q2R (1017 # 10000) * (t * t) * (t * t - Q2R (21966568338249754 # 10000000000000000) * t + Q2R (12949852507374631 # 10000000000000000));
   Q2R (2490627285651252793 # 1000000000000000000) * (t * t)
     * (t * t - Q2R (238535645472061657 # 100000000000000000) * t + Q2R (157803468208092486 # 100000000000000000));
   Q2R (-1654810288924490272 # 100000000000000000) * (t - Q2R (121712927295533244 # 100000000000000000)) * (t - Q2R (61620406037800089 # 100000000000000000)) * (t * t);
   Q2R (4737952196281928122 # 100000000000000000) * (t - Q2R (1203071208372362603 # 1000000000000000000)) * (t - Q2R (658047292653547382 # 1000000000000000000)) * (t * t);
   Q2R (-3487065786149660974 # 100000000000000000) * (t - Q2R (12 # 10)) * (t - Q2R (666666666666666667 # 1000000000000000000)) * (t * t);
   Q2R (25 # 10) * (t - 1) * (t - Q2R (6 # 10)) * (t * t)].
Definition tsit5_interpolation : interpolation := fun t0 t1 y0 y1 ks t =>
  y0 + tensordot (tsit5_b (linear_rescale t0 t t1)) (only_k ks).

(** [polyval] of each row of an array, times [t]: [dopri8.py:301], [kencarp3.py:120]. *)
Definition row_weights (coeffs : list (list Q)) (t : R) : list R :=
  map (fun row => polyval (map Q2R row) t * t) coeffs.

(** [dopri8.py:206-290] [_Dopri8Interpolation.eval_coeffs] *)
Definition dopri8_coeffs : list (list Q) :=
    [[(-15862087348215100347 # 2500000000000000000); (13837281562380879311 # 625000000000000000); (-300610568289666450593 # 10000000000000000000); (19999006933368397061 # 1000000000000000000); (-66910181737837595697 # 10000000000000000000); (1 # 1)];
     [(0 # 1); (0 # 1); (0 # 1); (0 # 1); (0 # 1); (0 # 1)];
     [(0 # 1); (0 # 1); (0 # 1); (0 # 1); (0 # 1); (0 # 1)];
     [(0 # 1); (0 # 1); (0 # 1); (0 # 1); (0 # 1); (0 # 1)];
     [(0 # 1); (0 # 1); (0 # 1); (0 # 1); (0 # 1); (0 # 1)];
     [(-198053959926101252609 # 5000000000000000000); (1164422149550342161651 # 10000000000000000000); (-1214999627731334642623 # 10000000000000000000); (10445470655858910481 # 200000000000000000); (-19035664511468169293 # 2500000000000000000); (0 # 1)];
     [(101880606904395718479 # 5000000000000000000); (-134290263765191439437 # 2000000000000000000); (831721004639847717481 # 10000000000000000000); (-468919164181093621583 # 10000000000000000000); (26820348157607216531 # 2500000000000000000); (0 # 1)];
     [(73347098826795362023 # 10000000000000000000); (-82836121763748262323 # 5000000000000000000); (47862253777996832191 # 5000000000000000000); (-1890893225010595467 # 10000000000000000000); (5526637063753648783 # 10000000000000000000); (0 # 1)];
     [(164400887176229577591 # 5000000000000000000); (-224979003711811254007 # 2500000000000000000); (878406057677205645007 # 10000000000000000000); (-357075975946222072821 # 10000000000000000000); (42186562625665153803 # 10000000000000000000); (0 # 1)];
     [(-50794495263213380477 # 5000000000000000000); (226237489648532849093 # 10000000000000000000); (-34830421554152593801 # 2000000000000000000); (392102800520252201 # 62500000000000000); (-6627209125361597559 # 10000000000000000000); (0 # 1)];
     [(-313503170246956403 # 25000000000000000); (322362340167355370113 # 10000000000000000000); (-142951644757395488483 # 5000000000000000000); (51580440636225374229 # 5000000000000000000); (-6318394500567731109 # 5000000000000000000); (0 # 1)];
     [(295553001484516038033 # 10000000000000000000); (-205255078872089962161 # 2500000000000000000); (408315475292170706467 # 5000000000000000000); (-347650769866611817349 # 10000000000000000000); (5410603789859042223 # 1000000000000000000); (0 # 1)];
     [(-417923486424390588923 # 10000000000000000000); (581331092895559766731 # 5000000000000000000); (-114937529137700941817 # 1000000000000000000); (119364492769556385099 # 2500000000000000000); (-70321379067945741781 # 10000000000000000000); (0 # 1)];
     [(40601385164420165097 # 2000000000000000000); (-67377597183298174599 # 1250000000000000000); (502558364226176017553 # 10000000000000000000); (-190082099341608028453 # 10000000000000000000); (11768793379857491743 # 5000000000000000000); (0 # 1)]].
(** [dopri8.py:292-303] [_Dopri8Interpolation.evaluate] *)
Definition dopri8_interpolation : interpolation := fun t0 t1 y0 y1 ks t =>
  y0 + tensordot (row_weights dopri8_coeffs (linear_rescale t0 t t1)) (only_k ks).

(** [kencarp3.py:93-122] [KenCarpInterpolation.evaluate] *)
Definition kencarp_interpolation (coeffs : list (list Q)) : interpolation := fun t0 t1 y0 y1 ks t =>
  y0 + tensordot (row_weights coeffs (linear_rescale t0 t t1)) (map2 Rplus (explicit_k ks) (implicit_k ks)).

(** [kencarp3.py:125-133] *)
Definition kencarp3_coeffs : list (list Q) :=
    [[(-215264564351 # 13552729205753); (4655552711362 # 22874653954995)];
     [(17870216137069 # 13817060693119); (-18682724506714 # 9892148508045)];
     [(-28141676662227 # 17317692491321); (34259539580243 # 13192909600954)];
     [(2508943948391 # 7218656332882); (584795268549 # 6622622206610)]].
(** [kencarp4.py:106-136] *)
Definition kencarp4_coeffs : list (list Q) :=
    [[(6818779379841 # 7100303317025); (-54480133 # 30881146); (6943876665148 # 7220017795957)];
     [(0 # 1); (0 # 1); (0 # 1)];
     [(2173542590792 # 12501825683035); (-11436875 # 14766696); (7640104374378 # 9702883013639)];
     [(-31592104683404 # 5083833661969); (174696575 # 18121608); (-20649996744609 # 7521556579894)];
     [(61146701046299 # 7138195549469); (-12120380 # 966161); (8854892464581 # 2390941311638)];
     [(-17219254887155 # 4939391667607); (3843 # 706); (-11397109935349 # 6675773540249)]].
(** [kencarp5.py:167-203] *)
Definition kencarp5_coeffs : list (list Q) :=
    [[(-9257016797708 # 5021505065439); (43486358583215 # 12773830924787); (-17674230611817 # 10670229744614)];
     [(0 # 1); (0 # 1); (0 # 1)];
     [(0 # 1); (0 # 1); (0 # 1)];
     [(26096422576131 # 11239449250142); (-91478233927265 # 11067650958493); (65168852399939 # 7868540260826)];
     [(92396832856987 # 20362823103730); (-79368583304911 # 10890268929626); (15494834004392 # 5936557850923)];
     [(30029262896817 # 10175596800299); (-12239297817655 # 9152339842473); (-99329723586156 # 26959484932159)];
     [(-26136350496073 # 3983972220547); (115839755401235 # 10719374521269); (-19024464361622 # 5461577185407)];
     [(-5289405421727 # 3760307252460); (5843115559534 # 2180450260947); (-6511271360970 # 6095937251113)]].

(** A solver with its interpolation and the order of the interpolation that its documentation states. *)
Record dense_method := DenseMethod {
  dm_method : rk_method;
  dm_interpolation : interpolation;
  dm_documented : nat
}.

(** [heun.py:24-25], [37-39] *)
Definition heun_dense : dense_method := DenseMethod heun hermite_from_k 2.
(** [midpoint.py:24-25], [33-35] *)
Definition midpoint_dense : dense_method := DenseMethod midpoint hermite_from_k 2.
(** [ralston.py:33], [39-41] *)
Definition ralston_dense : dense_method := DenseMethod ralston hermite_from_k 2.
(** [bosh3.py:27-28], [34-36] *)
Definition bosh3_dense : dense_method := DenseMethod bosh3 hermite_from_k 3.
(** [dopri5.py:58], [94-96] *)
Definition dopri5_dense : dense_method := DenseMethod dopri5 dopri5_interpolation 5.
(** [tsit5.py:163-164], [184-186] *)
Definition tsit5_dense : dense_method := DenseMethod tsit5 tsit5_interpolation 5.
(** [dopri8.py:310], [343-345] *)
Definition dopri8_dense : dense_method := DenseMethod dopri8 dopri8_interpolation 8.
(** [kvaerno3.py:49-50], [70-72] *)
Definition kvaerno3_dense : dense_method := DenseMethod kvaerno3 hermite_from_k 3.
(** [kvaerno4.py:87-88], [111-113] *)
Definition kvaerno4_dense : dense_method := DenseMethod kvaerno4 hermite_from_k 3.
(** [kvaerno5.py:93-94], [117-119] *)
Definition kvaerno5_dense : dense_method := DenseMethod kvaerno5 hermite_from_k 3.
(** [sil3.py:61], [87-94] *)
Definition sil3_dense : dense_method := DenseMethod sil3 sil3_interpolation 2.
(** [kencarp3.py:141], [166-168] *)
Definition kencarp3_dense : dense_method := DenseMethod kencarp3 (kencarp_interpolation kencarp3_coeffs) 2.
(** [kencarp4.py:144], [169-171] *)
Definition kencarp4_dense : dense_method := DenseMethod kencarp4 (kencarp_interpolation kencarp4_coeffs) 3.
(** [kencarp5.py:211], [236-238] *)
Definition kencarp5_dense : dense_method := DenseMethod kencarp5 (kencarp_interpolation kencarp5_coeffs) 3.

(** The dense output of a step: [interpolation_cls(t0=t0, t1=t1, **dense_info).evaluate(t)] with the
    [dense_info] that the step returns ([runge_kutta.py:1198]), at every component. *)
Definition dense_value {I J : Type} (interp : interpolation) (t0 t1 : R) (y0 : I -> R) (out : rk_out I J) (t : R)
  : I -> R :=
  fun x => interp t0 t1 (y0 x) (ro_y out x) (map (map (fun k => k x)) (ro_k out)) t.
