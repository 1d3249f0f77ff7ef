(** The Butcher tableaus shipped with the library, as the exact rationals denoted by the literals and
    formulas in the source (the code rounds each to the nearest float).  Kvaerno3, Kvaerno4, Kvaerno5, KenCarp3,
    KenCarp4, KenCarp5: entries given by formulas, such as the predictors, have been evaluated exactly. *)
From Coq Require Import QArith List.
From Verif Require Import Model_RK.
Import ListNotations.
Open Scope Q_scope.

(** [bosh3.py:11-20] [_bosh3_tableau] *)
Definition bosh3_tableau : tableau := Tableau
    [(1 # 2); (3 # 4); (1 # 1)]
    [(2 # 9); (1 # 3); (4 # 9); (0 # 1)]
    [(-5 # 72); (1 # 12); (1 # 9); (-1 # 8)]
    [[(1 # 2)];
     [(0 # 1); (3 # 4)];
     [(2 # 9); (1 # 3); (4 # 9)]]
    None
    None
    (0 # 1).

(** [dopri5.py:11-33] [_dopri5_tableau] *)
Definition dopri5_tableau : tableau := Tableau
    [(1 # 5); (3 # 10); (4 # 5); (8 # 9); (1 # 1); (1 # 1)]
    [(35 # 384); (0 # 1); (500 # 1113); (125 # 192); (-2187 # 6784); (11 # 84); (0 # 1)]
    [(71 # 86400); (0 # 1); (-142 # 50085); (71 # 2880); (-5751 # 169600); (44 # 1575); (-1 # 60)]
    [[(1 # 5)];
     [(3 # 40); (9 # 40)];
     [(44 # 45); (-56 # 15); (32 # 9)];
     [(19372 # 6561); (-25360 # 2187); (64448 # 6561); (-212 # 729)];
     [(9017 # 3168); (-355 # 33); (46732 # 5247); (49 # 176); (-5103 # 18656)];
     [(35 # 384); (0 # 1); (500 # 1113); (125 # 192); (-2187 # 6784); (11 # 84)]]
    None
    None
    (0 # 1).

(** [dopri8.py:18-187] [_dopri8_tableau] *)
Definition dopri8_tableau : tableau := Tableau
    [(1 # 18); (1 # 12); (1 # 8); (5 # 16); (3 # 8); (59 # 400); (93 # 200); (5490023248 # 9719169821); (13 # 20); (1201146811 # 1299019798); (1 # 1); (1 # 1); (1 # 1)]
    [(14005451 # 335480064); (0 # 1); (0 # 1); (0 # 1); (0 # 1); (-59238493 # 1068277825); (181606767 # 758867731); (561292985 # 797845732); (-1041891430 # 1371343529); (760417239 # 1151165299); (118820643 # 751138087); (-528747749 # 2220607170); (1 # 4); (0 # 1)]
    [(206899875720925 # 16966964735038208); (0 # 1); (0 # 1); (0 # 1); (0 # 1); (161224140072326693 # 208527862420056925); (-308134860501296901 # 4283929245060770651); (-187090058122256469 # 106070073963259076); (3721643503328385829 # 2082408744123259974); (-290897219666967667 # 371523099811498965); (39496005864008611 # 501397231350176553); (-627441401 # 2220607170); (1 # 4); (0 # 1)]
    [[(1 # 18)];
     [(1 # 48); (1 # 16)];
     [(1 # 32); (0 # 1); (3 # 32)];
     [(5 # 16); (0 # 1); (-75 # 64); (75 # 64)];
     [(3 # 80); (0 # 1); (0 # 1); (3 # 16); (3 # 20)];
     [(29443841 # 614563906); (0 # 1); (0 # 1); (77736538 # 692538347); (-28693883 # 1125000000); (23124283 # 1800000000)];
     [(16016141 # 946692911); (0 # 1); (0 # 1); (61564180 # 158732637); (22789713 # 633445777); (545815736 # 2771057229); (-180193667 # 1043307555)];
     [(39632708 # 573591083); (0 # 1); (0 # 1); (-433636366 # 683701615); (-421739975 # 2616292301); (100302831 # 723423059); (790204164 # 839813087); (800635310 # 3783071287)];
     [(246121993 # 1340847787); (0 # 1); (0 # 1); (-37695042795 # 15268766246); (-309121744 # 1061227803); (-12992083 # 490766935); (6005943493 # 2108947869); (393006217 # 1396673457); (123872331 # 1001029789)];
     [(-1028468189 # 846180014); (0 # 1); (0 # 1); (8478235783 # 508512852); (1311729495 # 1432422823); (-10304129995 # 1701304382); (-48777925059 # 3047939560); (15336726248 # 1032824649); (-45442868181 # 3398467696); (3065993473 # 597172653)];
     [(185892177 # 718116043); (0 # 1); (0 # 1); (-3185094517 # 667107341); (-477755414 # 1098053517); (-703635378 # 230739211); (5731566787 # 1027545527); (5232866602 # 850066563); (-4093664535 # 808688257); (3962137247 # 1805957418); (65686358 # 487910083)];
     [(403863854 # 491063109); (0 # 1); (0 # 1); (-5068492393 # 434740067); (-411421997 # 543043805); (652783627 # 914296604); (11173962825 # 925320556); (-13158990841 # 6184727034); (3936647629 # 1978049680); (-160528059 # 685178525); (248638103 # 1413531060); (0 # 1)];
     [(14005451 # 335480064); (0 # 1); (0 # 1); (0 # 1); (0 # 1); (-59238493 # 1068277825); (181606767 # 758867731); (561292985 # 797845732); (-1041891430 # 1371343529); (760417239 # 1151165299); (118820643 # 751138087); (-528747749 # 2220607170); (1 # 4)]]
    None
    None
    (0 # 1).

(** [heun.py:12-17] [_heun_tableau] *)
Definition heun_tableau : tableau := Tableau
    [(1 # 1)]
    [(1 # 2); (1 # 2)]
    [(1 # 2); (-1 # 2)]
    [[(1 # 1)]]
    None
    None
    (0 # 1).

(** [kencarp3.py:53-68] [_explicit_tableau] *)
Definition kencarp3_explicit_tableau : tableau := Tableau
    [(1767732205903 # 2027836641118); (3 # 5); (1 # 1)]
    [(1471266399579 # 7840856788654); (-4482444167858 # 7529755066697); (11266239266428 # 11593286722821); (1767732205903 # 4055673282236)]
    [(-681815649026867975666107 # 25159934323302256049469295); (-18411887981491912264464127 # 167175311446532472108584143); (12719313754959329011138489 # 123410692144842870217698057); (47289384293135913063989 # 1383962894467812063558225)]
    [[(1767732205903 # 2027836641118)];
     [(5535828885825 # 10492691773637); (788022342437 # 10882634858940)];
     [(6485989280629 # 16251701735622); (-4246266847089 # 9704473918619); (10755448449292 # 10357097424841)]]
    None
    None
    (0 # 1).

(** [kencarp3.py:70-90] [_implicit_tableau] *)
Definition kencarp3_implicit_tableau : tableau := Tableau
    [(1767732205903 # 2027836641118); (3 # 5); (1 # 1)]
    [(1471266399579 # 7840856788654); (-4482444167858 # 7529755066697); (11266239266428 # 11593286722821); (1767732205903 # 4055673282236)]
    [(-681815649026867975666107 # 25159934323302256049469295); (-18411887981491912264464127 # 167175311446532472108584143); (12719313754959329011138489 # 123410692144842870217698057); (47289384293135913063989 # 1383962894467812063558225)]
    [[(1767732205903 # 4055673282236)];
     [(2746238789719 # 10658868560708); (-640167445237 # 6845629431997)];
     [(1471266399579 # 7840856788654); (-4482444167858 # 7529755066697); (11266239266428 # 11593286722821)]]
    (Some [(0 # 1); (1767732205903 # 4055673282236); (1767732205903 # 4055673282236); (1767732205903 # 4055673282236)])
    (Some [[(1 # 1)];
     [(2755151106161 # 8838661029515); (6083509923354 # 8838661029515)];
     [(-260104435215 # 1767732205903); (2027836641118 # 1767732205903); (0 # 1)]])
    (0 # 1).

(** [kencarp4.py:38-70] [_explicit_tableau] *)
Definition kencarp4_explicit_tableau : tableau := Tableau
    [(1 # 2); (83 # 250); (31 # 50); (17 # 20); (1 # 1)]
    [(82889 # 524892); (0 # 1); (15625 # 83664); (69875 # 102672); (-2260 # 8211); (1 # 4)]
    [(31666707 # 9881966720); (0 # 1); (-256875 # 105007616); (-2768025 # 128864768); (169839 # 3864644); (-5247 # 225920)]
    [[(1 # 2)];
     [(13861 # 62500); (6889 # 62500)];
     [(-116923316275 # 2393684061468); (-2731218467317 # 15368042101831); (9408046702089 # 11113171139209)];
     [(-451086348788 # 2902428689909); (-2682348792572 # 7519795681897); (12662868775082 # 11960479115383); (3355817975965 # 11060851509271)];
     [(647845179188 # 3216320057751); (73281519250 # 8382639484533); (552539513391 # 3454668386233); (3354512671639 # 8306763924573); (4040 # 17871)]]
    None
    None
    (0 # 1).

(** [kencarp4.py:72-103] [_implicit_tableau] *)
Definition kencarp4_implicit_tableau : tableau := Tableau
    [(1 # 2); (83 # 250); (31 # 50); (17 # 20); (1 # 1)]
    [(82889 # 524892); (0 # 1); (15625 # 83664); (69875 # 102672); (-2260 # 8211); (1 # 4)]
    [(31666707 # 9881966720); (0 # 1); (-256875 # 105007616); (-2768025 # 128864768); (169839 # 3864644); (-5247 # 225920)]
    [[(1 # 4)];
     [(8611 # 62500); (-1743 # 31250)];
     [(5012029 # 34652500); (-654441 # 2922500); (174375 # 388108)];
     [(15267082809 # 155376265600); (-71443401 # 120774400); (730878875 # 902184768); (2285395 # 8070912)];
     [(82889 # 524892); (0 # 1); (15625 # 83664); (69875 # 102672); (-2260 # 8211)]]
    (Some [(0 # 1); (1 # 4); (1 # 4); (1 # 4); (1 # 4); (1 # 4)])
    (Some [[(1 # 1)];
     [(42 # 125); (83 # 125)];
     [(-6 # 25); (31 # 25); (0 # 1)];
     [(-23 # 62); (0 # 1); (0 # 1); (85 # 62)];
     [(-3 # 17); (0 # 1); (0 # 1); (0 # 1); (20 # 17)]])
    (0 # 1).

(** [kencarp5.py:63-110] [_explicit_tableau] *)
Definition kencarp5_explicit_tableau : tableau := Tableau
    [(41 # 100); (2935347310677 # 11292855782101); (1426016391358 # 7196633302097); (23 # 25); (6 # 25); (3 # 5); (1 # 1)]
    [(-872700587467 # 9133579230613); (0 # 1); (0 # 1); (22348218063261 # 9555858737531); (-1143369518992 # 8141816002931); (-39379526789629 # 19018526304540); (32727382324388 # 42900044865799); (41 # 200)]
    [(360431431567533808054934 # 89473089856732078284381229); (0 # 1); (0 # 1); (-21220331609936495351431026 # 309921249937726682547321949); (42283193605833819490634 # 2144566741190883522084871); (21843466548811234473856609 # 296589222149359214696574660); (-3333910710978735057753642 # 199750492790973993533703797); (-45448919757 # 3715198317040)]
    [[(41 # 100)];
     [(367902744464 # 2072280473677); (677623207551 # 8224143866563)];
     [(1268023523408 # 10340822734521); (0 # 1); (1029933939417 # 13636558850479)];
     [(14463281900351 # 6315353703477); (0 # 1); (66114435211212 # 5879490589093); (-54053170152839 # 4284798021562)];
     [(14090043504691 # 34967701212078); (0 # 1); (15191511035443 # 11219624916014); (-18461159152457 # 12425892160975); (-281667163811 # 9011619295870)];
     [(19230459214898 # 13134317526959); (0 # 1); (21275331358303 # 2942455364971); (-38145345988419 # 4862620318723); (-1 # 8); (-1 # 8)];
     [(-19977161125411 # 11928030595625); (0 # 1); (-40795976796054 # 6384907823539); (177454434618887 # 12078138498510); (782672205425 # 8267701900261); (-69563011059811 # 9646580694205); (7356628210526 # 4942186776405)]]
    None
    None
    (0 # 1).

(** [kencarp5.py:112-164] [_implicit_tableau] *)
Definition kencarp5_implicit_tableau : tableau := Tableau
    [(41 # 100); (2935347310677 # 11292855782101); (1426016391358 # 7196633302097); (23 # 25); (6 # 25); (3 # 5); (1 # 1)]
    [(-872700587467 # 9133579230613); (0 # 1); (0 # 1); (22348218063261 # 9555858737531); (-1143369518992 # 8141816002931); (-39379526789629 # 19018526304540); (32727382324388 # 42900044865799); (41 # 200)]
    [(360431431567533808054934 # 89473089856732078284381229); (0 # 1); (0 # 1); (-21220331609936495351431026 # 309921249937726682547321949); (42283193605833819490634 # 2144566741190883522084871); (21843466548811234473856609 # 296589222149359214696574660); (-3333910710978735057753642 # 199750492790973993533703797); (-45448919757 # 3715198317040)]
    [[(41 # 200)];
     [(41 # 400); (-567603406766 # 11931857230679)];
     [(683785636431 # 9252920307686); (0 # 1); (-110385047103 # 1367015193373)];
     [(3016520224154 # 10081342136671); (0 # 1); (30586259806659 # 12414158314087); (-22760509404356 # 11113319521817)];
     [(218866479029 # 1489978393911); (0 # 1); (638256894668 # 5436446318841); (-1179710474555 # 5321154724896); (-60928119172 # 8023461067671)];
     [(1020004230633 # 5715676835656); (0 # 1); (25762820946817 # 25263940353407); (-2161375909145 # 9755907335909); (-211217309593 # 5846859502534); (-4269925059573 # 7827059040719)];
     [(-872700587467 # 9133579230613); (0 # 1); (0 # 1); (22348218063261 # 9555858737531); (-1143369518992 # 8141816002931); (-39379526789629 # 19018526304540); (32727382324388 # 42900044865799)]]
    (Some [(0 # 1); (41 # 200); (41 # 200); (41 # 200); (41 # 200); (41 # 200); (41 # 200); (41 # 200)])
    (Some [[(1 # 1)];
     [(169472355998441 # 463007087066141); (293534731067700 # 463007087066141)];
     [(152460326250177 # 295061965385977); (142601639135800 # 295061965385977); (0 # 1)];
     [(-51 # 41); (92 # 41); (0 # 1); (0 # 1)];
     [(1875516024773 # 24461227588975); (0 # 1); (22585711564202 # 24461227588975); (0 # 1); (0 # 1)];
     [(8 # 23); (0 # 1); (0 # 1); (0 # 1); (15 # 23); (0 # 1)];
     [(-2 # 23); (0 # 1); (0 # 1); (0 # 1); (25 # 23); (0 # 1); (0 # 1)]])
    (0 # 1).

(** [kvaerno3.py:31-42] [_kvaerno3_tableau] *)
Definition kvaerno3_tableau : tableau := Tableau
    [(871733043 # 1000000000); (1 # 1); (1 # 1)]
    [(1615199129 # 5230398258); (500000000000000000 # 335443634225880453); (-950642763225880453 # 769601742000000000); (871733043 # 2000000000)]
    [(-950642763225880453 # 5230398258000000000); (950642763225880453 # 670887268451760906); (-643043198725880453 # 384800871000000000); (871733043 # 2000000000)]
    [[(871733043 # 2000000000)];
     [(855280630741960151 # 1743466086000000000); (128266957 # 1743466086)];
     [(1615199129 # 5230398258); (500000000000000000 # 335443634225880453); (-950642763225880453 # 769601742000000000)]]
    (Some [(0 # 1); (871733043 # 2000000000); (871733043 # 2000000000); (871733043 # 2000000000)])
    (Some [[(1 # 1)];
     [(-128266957 # 871733043); (1000000000 # 871733043)];
     [(855280630741960151 # 1743466086000000000); (128266957 # 1743466086); (871733043 # 2000000000)]])
    (0 # 1).

(** [kvaerno4.py:63-80] [_kvaerno4_tableau] *)
Definition kvaerno4_tableau : tableau := Tableau
    [(9165057 # 8000000); (458736374942455320579 # 768267531517976000000); (1 # 1); (1 # 1)]
    [(4974998481883639069915424009 # 25226070145925848398358848018); (512267531517976000000 # 2896723425622305961737); (7085287288340260921240130062871975861485784000000 # 8688889843967792518255793606336385827772250856367); (-730946746334508679421 # 958846824964048000000); (9165057 # 16000000)]
    [(-4398534770983054921446467315448829 # 67269520389135595728956928048000000); (3775381608782278396204191997 # 7724595801659482564632000000); (7853764883681319032471307338342907967551684963395455973 # 23170372917247446715348782950230362207392668950312000000); (-640094804575520679421 # 479423412482024000000); (9165057 # 16000000)]
    [[(9165057 # 16000000)];
     [(24677055733936442707987382197653513 # 147558749996181061635702784144000000); (-5273253073883639069915424009 # 36889687499045265408925696036)];
     [(52995592168018277323662794018346487 # 201808561167406787186870784144000000); (-7228004574203027188612575991 # 23173787404978447693896000000); (552680620818366956619766483172687329314277 # 1159911959941650322636844309319684312000000)];
     [(4974998481883639069915424009 # 25226070145925848398358848018); (512267531517976000000 # 2896723425622305961737); (7085287288340260921240130062871975861485784000000 # 8688889843967792518255793606336385827772250856367); (-730946746334508679421 # 958846824964048000000)]]
    (Some [(0 # 1); (9165057 # 16000000); (9165057 # 16000000); (9165057 # 16000000); (9165057 # 16000000)])
    (Some [[(1 # 1)];
     [(45980684000000 # 96033441439747); (50052757439747 # 96033441439747)];
     [(0 # 1); (309531156575520679421 # 421415589758988000000); (111884433183467320579 # 421415589758988000000)];
     [(52995592168018277323662794018346487 # 201808561167406787186870784144000000); (-7228004574203027188612575991 # 23173787404978447693896000000); (552680620818366956619766483172687329314277 # 1159911959941650322636844309319684312000000); (9165057 # 16000000)]])
    (0 # 1).

(** [kvaerno5.py:61-86] [_kvaerno5_tableau] *)
Definition kvaerno5_tableau : tableau := Tableau
    [(13 # 25); (307583302491977 # 250000000000000); (8957659843500759 # 10000000000000000); (10909840246466189 # 25000000000000000); (1 # 1); (1 # 1)]
    [(13659751177640291 # 100000000000000000); (0 # 1); (-687113599567297 # 12500000000000000); (-2059313364160523 # 50000000000000000); (62993304899016403 # 100000000000000000); (870309931025341 # 12500000000000000); (13 # 50)]
    [(-195889053627933 # 100000000000000000); (0 # 1); (-1251571594786333 # 100000000000000000); (-6565284626324187 # 100000000000000000); (1050265826535727 # 100000000000000000); (-2379690068974659 # 12500000000000000); (13 # 50)]
    [[(13 # 50)];
     [(13 # 100); (84033320996790809 # 100000000000000000)];
     [(4474392295664101 # 20000000000000000); (47675532319799699 # 100000000000000000); (-1294179072622523 # 20000000000000000)];
     [(16648564323248321 # 100000000000000000); (261250471039793 # 2500000000000000); (726296454419743 # 20000000000000000); (-6545352225536999 # 50000000000000000)];
     [(108247189306783 # 781250000000000); (0 # 1); (-4245337201752043 # 100000000000000000); (2446657898003141 # 100000000000000000); (15485759768120169 # 25000000000000000)];
     [(13659751177640291 # 100000000000000000); (0 # 1); (-687113599567297 # 12500000000000000); (-2059313364160523 # 50000000000000000); (62993304899016403 # 100000000000000000); (870309931025341 # 12500000000000000)]]
    (Some [(0 # 1); (13 # 50); (13 # 50); (13 # 50); (13 # 50); (13 # 50); (13 # 50)])
    (Some [[(1 # 1)];
     [(-1366025403784441 # 1000000000000000); (23660254037844357 # 10000000000000000)];
     [(-19650552613122207 # 100000000000000000); (8113579546496623 # 10000000000000000); (19257378574077977 # 50000000000000000)];
     [(10375304369958693 # 100000000000000000); (937994698066431 # 1000000000000000); (-4174774176601781 # 100000000000000000); (0 # 1)];
     [(-2160139109237259 # 12500000000000000); (6235784481025847 # 10000000000000000); (5492326806363959 # 10000000000000000); (0 # 1); (0 # 1)];
     [(108247189306783 # 781250000000000); (0 # 1); (-4245337201752043 # 100000000000000000); (2446657898003141 # 100000000000000000); (15485759768120169 # 25000000000000000); (13 # 50)]])
    (0 # 1).

(** [midpoint.py:12-17] [_midpoint_tableau] *)
Definition midpoint_tableau : tableau := Tableau
    [(1 # 2)]
    [(0 # 1); (1 # 1)]
    [(1 # 1); (-1 # 1)]
    [[(1 # 2)]]
    None
    None
    (0 # 1).

(** [ralston.py:21-26] [_ralston_tableau] *)
Definition ralston_tableau : tableau := Tableau
    [(2 # 3)]
    [(1 # 4); (3 # 4)]
    [(3 # 4); (-3 # 4)]
    [[(2 # 3)]]
    None
    None
    (0 # 1).

(** [sil3.py:26-43] [_implicit_tableau] *)
Definition sil3_implicit_tableau : tableau := Tableau
    [(1 # 3); (2 # 3); (1 # 1)]
    [(3 # 8); (0 # 1); (3 # 8); (1 # 4)]
    [(1 # 8); (0 # 1); (-3 # 8); (1 # 4)]
    [[(1 # 6)];
     [(1 # 3); (0 # 1)];
     [(3 # 8); (0 # 1); (3 # 8)]]
    (Some [(0 # 1); (1 # 6); (1 # 3); (1 # 4)])
    (Some [[(1 # 1)];
     [(-1 # 1); (2 # 1)];
     [(-1 # 1); (2 # 1); (0 # 1)]])
    (0 # 1).

(** [sil3.py:44-53] [_explicit_tableau] *)
Definition sil3_explicit_tableau : tableau := Tableau
    [(1 # 3); (2 # 3); (1 # 1)]
    [(1 # 2); (-1 # 2); (1 # 1); (0 # 1)]
    [(0 # 1); (1 # 2); (-1 # 1); (1 # 2)]
    [[(1 # 3)];
     [(1 # 6); (1 # 2)];
     [(1 # 2); (-1 # 2); (1 # 1)]]
    None
    None
    (0 # 1).

(** [tsit5.py:18-100] [_tsit5_tableau] *)
Definition tsit5_tableau : tableau := Tableau
    [(161 # 1000); (327 # 1000); (9 # 10); (2450063852261274214324525715717561488735534494890756192213691073305298987690270075651 # 2500000000000000000000000000000000000000000000000000000000000000000000000000000000000); (1 # 1); (1 # 1)]
    [(2411519170451630737954182829128219083427998809539499295475829786441212898808515703849 # 25000000000000000000000000000000000000000000000000000000000000000000000000000000000000); (1 # 100); (4798896504144995747752495322905965199130404621990332488332634944254542060153074523509 # 10000000000000000000000000000000000000000000000000000000000000000000000000000000000000); (1379008574103741893192274821856872770756462643091360525934940067397245698027561293331 # 1000000000000000000000000000000000000000000000000000000000000000000000000000000000000); (-3290069515436080679901047585711363850115683290894936158531296799594813811049925401677 # 1000000000000000000000000000000000000000000000000000000000000000000000000000000000000); (2324710524099773982415355918398765796109060233222962411944060046314465391054716027841 # 1000000000000000000000000000000000000000000000000000000000000000000000000000000000000); (0 # 1)]
    [(1424008841780617154702840486031627820755743043466927646109960639834070449303964097 # 800000000000000000000000000000000000000000000000000000000000000000000000000000000000); (81643445965674690322363606335468624018625375901590476109406046707704475274639131273 # 100000000000000000000000000000000000000000000000000000000000000000000000000000000000000); (-4925548756413747506446704795328940149142958610689455377036331003095599464156089769 # 625000000000000000000000000000000000000000000000000000000000000000000000000000000000); (14471100717326290753716514797263511672092271234316767761951423389676081964949985357 # 100000000000000000000000000000000000000000000000000000000000000000000000000000000000); (-23294286618102209000797504426081687177043124958269551190692181755214776155800935559 # 40000000000000000000000000000000000000000000000000000000000000000000000000000000000); (57260263241148368332704564854069287180350590997354977243433555434150882761118555969 # 125000000000000000000000000000000000000000000000000000000000000000000000000000000000); (-1 # 66)]
    [[(161 # 1000)];
     [(-8480655492356988544426874250230774675121177393430391537369234245294192976164141156943 # 1000000000000000000000000000000000000000000000000000000000000000000000000000000000000000); (3354806554923569885444268742502307746751211773934303915373692342452941929761641411569 # 10000000000000000000000000000000000000000000000000000000000000000000000000000000000000)];
     [(2897153057105493432130432594192938764924887287701866490314866693455023795137503079289 # 1000000000000000000000000000000000000000000000000000000000000000000000000000000000000); (-3179724244987537421574079956191912812976350323707813351652964425103644360617605122183 # 500000000000000000000000000000000000000000000000000000000000000000000000000000000000); (4362295432869581411017727318190886861027813359713760212991062156752264926097707165077 # 1000000000000000000000000000000000000000000000000000000000000000000000000000000000000)];
     [(5325864828439256604428877920840511317836476253097040101202360397727981648835607691791 # 1000000000000000000000000000000000000000000000000000000000000000000000000000000000000); (-1174888356406282787774717033978577296188744178259862899288666928009020615663593781589 # 100000000000000000000000000000000000000000000000000000000000000000000000000000000000); (7495539342889836208304604784564358155658679161518186721010132816213648793440552049753 # 1000000000000000000000000000000000000000000000000000000000000000000000000000000000000); (-1849901327235104985130041586641438322269996681205907048806950090586093811282277907927 # 20000000000000000000000000000000000000000000000000000000000000000000000000000000000000)];
     [(1465363860736605007164812871745661972598584416541203608704539309763126834942677919937 # 250000000000000000000000000000000000000000000000000000000000000000000000000000000000); (-323024232946177732292652967044583984885445187988935864791578062609982129817085796113 # 25000000000000000000000000000000000000000000000000000000000000000000000000000000000); (4079683949288079321590200397269626742590959160567526652874177711977504611324336867493 # 500000000000000000000000000000000000000000000000000000000000000000000000000000000000); (-1431699465628019944490610850516594773825442629472708976544227931909274480460755575767 # 20000000000000000000000000000000000000000000000000000000000000000000000000000000000000); (-1413452519703419145450152860635612073358816813439885003808938100638382285645789571103 # 50000000000000000000000000000000000000000000000000000000000000000000000000000000000000)];
     [(2411519170451630737954182829128219083427998809539499295475829786441212898808515703849 # 25000000000000000000000000000000000000000000000000000000000000000000000000000000000000); (1 # 100); (4798896504144995747752495322905965199130404621990332488332634944254542060153074523509 # 10000000000000000000000000000000000000000000000000000000000000000000000000000000000000); (1379008574103741893192274821856872770756462643091360525934940067397245698027561293331 # 1000000000000000000000000000000000000000000000000000000000000000000000000000000000000); (-3290069515436080679901047585711363850115683290894936158531296799594813811049925401677 # 1000000000000000000000000000000000000000000000000000000000000000000000000000000000000); (2324710524099773982415355918398765796109060233222962411944060046314465391054716027841 # 1000000000000000000000000000000000000000000000000000000000000000000000000000000000000)]]
    None
    None
    (0 # 1).

(** All of the above, from [/repo/diffrax/_solver/*.py]. *)
Definition shipped_tableaus : list tableau :=
  [bosh3_tableau;
   dopri5_tableau;
   dopri8_tableau;
   heun_tableau;
   kencarp3_explicit_tableau;
   kencarp3_implicit_tableau;
   kencarp4_explicit_tableau;
   kencarp4_implicit_tableau;
   kencarp5_explicit_tableau;
   kencarp5_implicit_tableau;
   kvaerno3_tableau;
   kvaerno4_tableau;
   kvaerno5_tableau;
   midpoint_tableau;
   ralston_tableau;
   sil3_implicit_tableau;
   sil3_explicit_tableau;
   tsit5_tableau].
