(** src/pynlo/util/ode_solve/dopr853_constants.py:20-185: the Dormand-Prince 8(5,3) coefficients.
    Every literal is taken at its decimal value (the source writes up to 30 digits; float64 keeps 16). *)
From Coq Require Import QArith Qreals Reals.
Local Open Scope Q_scope.

Definition q_c2 : Q := (526001519587677318785587544488) # (10 ^ 31).
Definition q_c3 : Q := (789002279381515978178381316732) # (10 ^ 31).
Definition q_c4 : Q := (118350341907227396726757197510) # (10 ^ 30).
Definition q_c5 : Q := (281649658092772603273242802490) # (10 ^ 30).
Definition q_c6 : Q := (333333333333333333333333333333) # (10 ^ 30).
Definition q_c7 : Q := (25) # (10 ^ 2).
Definition q_c8 : Q := (307692307692307692307692307692) # (10 ^ 30).
Definition q_c9 : Q := (651282051282051282051282051282) # (10 ^ 30).
Definition q_c10 : Q := (6) # (10 ^ 1).
Definition q_c11 : Q := (857142857142857142857142857142) # (10 ^ 30).
Definition q_c14 : Q := (1) # (10 ^ 1).
Definition q_c15 : Q := (2) # (10 ^ 1).
Definition q_c16 : Q := (777777777777777777777777777778) # (10 ^ 30).
Definition q_b1 : Q := (542937341165687622380535766363) # (10 ^ 31).
Definition q_b6 : Q := (445031289275240888144113950566) # (10 ^ 29).
Definition q_b7 : Q := (189151789931450038304281599044) # (10 ^ 29).
Definition q_b8 : Q := (-58012039600105847814672114227) # (10 ^ 28).
Definition q_b9 : Q := (31116436695781989440891606237) # (10 ^ 29).
Definition q_b10 : Q := (-152160949662516078556178806805) # (10 ^ 30).
Definition q_b11 : Q := (201365400804030348374776537501) # (10 ^ 30).
Definition q_b12 : Q := (447106157277725905176885569043) # (10 ^ 31).
Definition q_bhh1 : Q := (244094488188976377952755905512) # (10 ^ 30).
Definition q_bhh2 : Q := (733846688281611857341361741547) # (10 ^ 30).
Definition q_bhh3 : Q := (220588235294117647058823529412) # (10 ^ 31).
Definition q_er1 : Q := (1312004499419488073250102996) # (10 ^ 29).
Definition q_er6 : Q := (-1225156446376204440720569753) # (10 ^ 27).
Definition q_er7 : Q := (-4957589496572501915214079952) # (10 ^ 28).
Definition q_er8 : Q := (1664377182454986536961530415) # (10 ^ 27).
Definition q_er9 : Q := (-3503288487499736816886487290) # (10 ^ 28).
Definition q_er10 : Q := (3341791187130174790297318841) # (10 ^ 28).
Definition q_er11 : Q := (8192320648511571246570742613) # (10 ^ 29).
Definition q_er12 : Q := (-2235530786388629525884427845) # (10 ^ 29).
Definition q_a21 : Q := (526001519587677318785587544488) # (10 ^ 31).
Definition q_a31 : Q := (197250569845378994544595329183) # (10 ^ 31).
Definition q_a32 : Q := (591751709536136983633785987549) # (10 ^ 31).
Definition q_a41 : Q := (295875854768068491816892993775) # (10 ^ 31).
Definition q_a43 : Q := (887627564304205475450678981324) # (10 ^ 31).
Definition q_a51 : Q := (241365134159266685502369798665) # (10 ^ 30).
Definition q_a53 : Q := (-884549479328286085344864962717) # (10 ^ 30).
Definition q_a54 : Q := (924834003261792003115737966543) # (10 ^ 30).
Definition q_a61 : Q := (37037037037037037037037037037) # (10 ^ 30).
Definition q_a64 : Q := (170828608729473871279604482173) # (10 ^ 30).
Definition q_a65 : Q := (125467687566822425016691814123) # (10 ^ 30).
Definition q_a71 : Q := (37109375) # (10 ^ 9).
Definition q_a74 : Q := (170252211019544039314978060272) # (10 ^ 30).
Definition q_a75 : Q := (602165389804559606850219397283) # (10 ^ 31).
Definition q_a76 : Q := (-17578125) # (10 ^ 9).
Definition q_a81 : Q := (370920001185047927108779319836) # (10 ^ 31).
Definition q_a84 : Q := (170383925712239993810214054705) # (10 ^ 30).
Definition q_a85 : Q := (107262030446373284651809199168) # (10 ^ 30).
Definition q_a86 : Q := (-153194377486244017527936158236) # (10 ^ 31).
Definition q_a87 : Q := (827378916381402288758473766002) # (10 ^ 32).
Definition q_a91 : Q := (624110958716075717114429577812) # (10 ^ 30).
Definition q_a94 : Q := (-336089262944694129406857109825) # (10 ^ 29).
Definition q_a95 : Q := (-868219346841726006818189891453) # (10 ^ 30).
Definition q_a96 : Q := (275920996994467083049415600797) # (10 ^ 28).
Definition q_a97 : Q := (201540675504778934086186788979) # (10 ^ 28).
Definition q_a98 : Q := (-434898841810699588477366255144) # (10 ^ 28).
Definition q_a101 : Q := (477662536438264365890433908527) # (10 ^ 30).
Definition q_a104 : Q := (-248811461997166764192642586468) # (10 ^ 29).
Definition q_a105 : Q := (-590290826836842996371446475743) # (10 ^ 30).
Definition q_a106 : Q := (212300514481811942347288949897) # (10 ^ 28).
Definition q_a107 : Q := (152792336328824235832596922938) # (10 ^ 28).
Definition q_a108 : Q := (-332882109689848629194453265587) # (10 ^ 28).
Definition q_a109 : Q := (-203312017085086261358222928593) # (10 ^ 31).
Definition q_a111 : Q := (-93714243008598732571704021658) # (10 ^ 29).
Definition q_a114 : Q := (518637242884406370830023853209) # (10 ^ 29).
Definition q_a115 : Q := (109143734899672957818500254654) # (10 ^ 29).
Definition q_a116 : Q := (-814978701074692612513997267357) # (10 ^ 29).
Definition q_a117 : Q := (-185200656599969598641566180701) # (10 ^ 28).
Definition q_a118 : Q := (227394870993505042818970056734) # (10 ^ 28).
Definition q_a119 : Q := (249360555267965238987089396762) # (10 ^ 29).
Definition q_a1110 : Q := (-30467644718982195003823669022) # (10 ^ 28).
Definition q_a121 : Q := (227331014751653820792359768449) # (10 ^ 29).
Definition q_a124 : Q := (-105344954667372501984066689879) # (10 ^ 28).
Definition q_a125 : Q := (-200087205822486249909675718444) # (10 ^ 29).
Definition q_a126 : Q := (-179589318631187989172765950534) # (10 ^ 28).
Definition q_a127 : Q := (279488845294199600508499808837) # (10 ^ 28).
Definition q_a128 : Q := (-285899827713502369474065508674) # (10 ^ 29).
Definition q_a129 : Q := (-887285693353062954433549289258) # (10 ^ 29).
Definition q_a1210 : Q := (123605671757943030647266201528) # (10 ^ 28).
Definition q_a1211 : Q := (643392746015763530355970484046) # (10 ^ 30).
Definition q_a141 : Q := (561675022830479523392909219681) # (10 ^ 31).
Definition q_a147 : Q := (253500210216624811088794765333) # (10 ^ 30).
Definition q_a148 : Q := (-246239037470802489917441475441) # (10 ^ 30).
Definition q_a149 : Q := (-124191423263816360469010140626) # (10 ^ 30).
Definition q_a1410 : Q := (15329179827876569731206322685) # (10 ^ 29).
Definition q_a1411 : Q := (820105229563468988491666602057) # (10 ^ 32).
Definition q_a1412 : Q := (756789766054569976138603589584) # (10 ^ 32).
Definition q_a1413 : Q := (-8298) # (10 ^ 6).
Definition q_a151 : Q := (318346481635021405060768473261) # (10 ^ 31).
Definition q_a156 : Q := (283009096723667755288322961402) # (10 ^ 31).
Definition q_a157 : Q := (535419883074385676223797384372) # (10 ^ 31).
Definition q_a158 : Q := (-549237485713909884646569340306) # (10 ^ 31).
Definition q_a1511 : Q := (-108347328697249322858509316994) # (10 ^ 33).
Definition q_a1512 : Q := (382571090835658412954920192323) # (10 ^ 33).
Definition q_a1513 : Q := (-340465008687404560802977114492) # (10 ^ 33).
Definition q_a1514 : Q := (141312443674632500278074618366) # (10 ^ 30).
Definition q_a161 : Q := (-428896301583791923408573538692) # (10 ^ 30).
Definition q_a166 : Q := (-469762141536116384314449447206) # (10 ^ 29).
Definition q_a167 : Q := (768342119606259904184240953878) # (10 ^ 29).
Definition q_a168 : Q := (406898981839711007970213554331) # (10 ^ 29).
Definition q_a169 : Q := (356727187455281109270669543021) # (10 ^ 30).
Definition q_a1613 : Q := (-139902416515901462129418009734) # (10 ^ 32).
Definition q_a1614 : Q := (29475147891527723389556272149) # (10 ^ 28).
Definition q_a1615 : Q := (-915095847217987001081870187138) # (10 ^ 29).
Definition q_d41 : Q := (-84289382761090128651353491142) # (10 ^ 28).
Definition q_d46 : Q := (56671495351937776962531783590) # (10 ^ 29).
Definition q_d47 : Q := (-30689499459498916912797304727) # (10 ^ 28).
Definition q_d48 : Q := (23846676565120698287728149680) # (10 ^ 28).
Definition q_d49 : Q := (21170345824450282767155149946) # (10 ^ 28).
Definition q_d410 : Q := (-87139158377797299206789907490) # (10 ^ 29).
Definition q_d411 : Q := (22404374302607882758541771650) # (10 ^ 28).
Definition q_d412 : Q := (63157877876946881815570249290) # (10 ^ 29).
Definition q_d413 : Q := (-88990336451333310820698117400) # (10 ^ 30).
Definition q_d414 : Q := (18148505520854727256656404962) # (10 ^ 27).
Definition q_d415 : Q := (-91946323924783554000451984436) # (10 ^ 28).
Definition q_d416 : Q := (-44360363875948939664310572000) # (10 ^ 28).
Definition q_d51 : Q := (10427508642579134603413151009) # (10 ^ 27).
Definition q_d56 : Q := (24228349177525818288430175319) # (10 ^ 26).
Definition q_d57 : Q := (16520045171727028198505394887) # (10 ^ 26).
Definition q_d58 : Q := (-37454675472269020279518312152) # (10 ^ 26).
Definition q_d59 : Q := (-22113666853125306036270938578) # (10 ^ 27).
Definition q_d510 : Q := (77334326684722638389603898808) # (10 ^ 28).
Definition q_d511 : Q := (-30674084731089398182061213626) # (10 ^ 27).
Definition q_d512 : Q := (-93321305264302278729567221706) # (10 ^ 28).
Definition q_d513 : Q := (15697238121770843886131091075) # (10 ^ 27).
Definition q_d514 : Q := (-31139403219565177677282850411) # (10 ^ 27).
Definition q_d515 : Q := (-93529243588444783865713862664) # (10 ^ 28).
Definition q_d516 : Q := (35816841486394083752465898540) # (10 ^ 27).
Definition q_d61 : Q := (19985053242002433820987653617) # (10 ^ 27).
Definition q_d66 : Q := (-38703730874935176555105901742) # (10 ^ 26).
Definition q_d67 : Q := (-18917813819516756882830838328) # (10 ^ 26).
Definition q_d68 : Q := (52780815920542364900561016686) # (10 ^ 26).
Definition q_d69 : Q := (-11573902539959630126141871134) # (10 ^ 27).
Definition q_d610 : Q := (68812326946963000169666922661) # (10 ^ 28).
Definition q_d611 : Q := (-10006050966910838403183860980) # (10 ^ 28).
Definition q_d612 : Q := (77771377980534432092869265740) # (10 ^ 29).
Definition q_d613 : Q := (-27782057523535084065932004339) # (10 ^ 28).
Definition q_d614 : Q := (-60196695231264120758267380846) # (10 ^ 27).
Definition q_d615 : Q := (84320405506677161018159903784) # (10 ^ 27).
Definition q_d616 : Q := (11992291136182789328035130030) # (10 ^ 27).
Definition q_d71 : Q := (-25693933462703749003312586129) # (10 ^ 27).
Definition q_d76 : Q := (-15418974869023643374053993627) # (10 ^ 26).
Definition q_d77 : Q := (-23152937917604549567536039109) # (10 ^ 26).
Definition q_d78 : Q := (35763911791061412378285349910) # (10 ^ 26).
Definition q_d79 : Q := (93405324183624310003907691704) # (10 ^ 27).
Definition q_d710 : Q := (-37458323136451633156875139351) # (10 ^ 27).
Definition q_d711 : Q := (10409964950896230045147246184) # (10 ^ 26).
Definition q_d712 : Q := (29840293426660503123344363579) # (10 ^ 27).
Definition q_d713 : Q := (-43533456590011143754432175058) # (10 ^ 27).
Definition q_d714 : Q := (96324553959188282948394950600) # (10 ^ 27).
Definition q_d715 : Q := (-39177261675615439165231486172) # (10 ^ 27).
Definition q_d716 : Q := (-14972683625798562581422125276) # (10 ^ 26).

Definition c2 : R := Q2R q_c2.
Definition c3 : R := Q2R q_c3.
Definition c4 : R := Q2R q_c4.
Definition c5 : R := Q2R q_c5.
Definition c6 : R := Q2R q_c6.
Definition c7 : R := Q2R q_c7.
Definition c8 : R := Q2R q_c8.
Definition c9 : R := Q2R q_c9.
Definition c10 : R := Q2R q_c10.
Definition c11 : R := Q2R q_c11.
Definition c14 : R := Q2R q_c14.
Definition c15 : R := Q2R q_c15.
Definition c16 : R := Q2R q_c16.
Definition b1 : R := Q2R q_b1.
Definition b6 : R := Q2R q_b6.
Definition b7 : R := Q2R q_b7.
Definition b8 : R := Q2R q_b8.
Definition b9 : R := Q2R q_b9.
Definition b10 : R := Q2R q_b10.
Definition b11 : R := Q2R q_b11.
Definition b12 : R := Q2R q_b12.
Definition bhh1 : R := Q2R q_bhh1.
Definition bhh2 : R := Q2R q_bhh2.
Definition bhh3 : R := Q2R q_bhh3.
Definition er1 : R := Q2R q_er1.
Definition er6 : R := Q2R q_er6.
Definition er7 : R := Q2R q_er7.
Definition er8 : R := Q2R q_er8.
Definition er9 : R := Q2R q_er9.
Definition er10 : R := Q2R q_er10.
Definition er11 : R := Q2R q_er11.
Definition er12 : R := Q2R q_er12.
Definition a21 : R := Q2R q_a21.
Definition a31 : R := Q2R q_a31.
Definition a32 : R := Q2R q_a32.
Definition a41 : R := Q2R q_a41.
Definition a43 : R := Q2R q_a43.
Definition a51 : R := Q2R q_a51.
Definition a53 : R := Q2R q_a53.
Definition a54 : R := Q2R q_a54.
Definition a61 : R := Q2R q_a61.
Definition a64 : R := Q2R q_a64.
Definition a65 : R := Q2R q_a65.
Definition a71 : R := Q2R q_a71.
Definition a74 : R := Q2R q_a74.
Definition a75 : R := Q2R q_a75.
Definition a76 : R := Q2R q_a76.
Definition a81 : R := Q2R q_a81.
Definition a84 : R := Q2R q_a84.
Definition a85 : R := Q2R q_a85.
Definition a86 : R := Q2R q_a86.
Definition a87 : R := Q2R q_a87.
Definition a91 : R := Q2R q_a91.
Definition a94 : R := Q2R q_a94.
Definition a95 : R := Q2R q_a95.
Definition a96 : R := Q2R q_a96.
Definition a97 : R := Q2R q_a97.
Definition a98 : R := Q2R q_a98.
Definition a101 : R := Q2R q_a101.
Definition a104 : R := Q2R q_a104.
Definition a105 : R := Q2R q_a105.
Definition a106 : R := Q2R q_a106.
Definition a107 : R := Q2R q_a107.
Definition a108 : R := Q2R q_a108.
Definition a109 : R := Q2R q_a109.
Definition a111 : R := Q2R q_a111.
Definition a114 : R := Q2R q_a114.
Definition a115 : R := Q2R q_a115.
Definition a116 : R := Q2R q_a116.
Definition a117 : R := Q2R q_a117.
Definition a118 : R := Q2R q_a118.
Definition a119 : R := Q2R q_a119.
Definition a1110 : R := Q2R q_a1110.
Definition a121 : R := Q2R q_a121.
Definition a124 : R := Q2R q_a124.
Definition a125 : R := Q2R q_a125.
Definition a126 : R := Q2R q_a126.
Definition a127 : R := Q2R q_a127.
Definition a128 : R := Q2R q_a128.
Definition a129 : R := Q2R q_a129.
Definition a1210 : R := Q2R q_a1210.
Definition a1211 : R := Q2R q_a1211.
Definition a141 : R := Q2R q_a141.
Definition a147 : R := Q2R q_a147.
Definition a148 : R := Q2R q_a148.
Definition a149 : R := Q2R q_a149.
Definition a1410 : R := Q2R q_a1410.
Definition a1411 : R := Q2R q_a1411.
Definition a1412 : R := Q2R q_a1412.
Definition a1413 : R := Q2R q_a1413.
Definition a151 : R := Q2R q_a151.
Definition a156 : R := Q2R q_a156.
Definition a157 : R := Q2R q_a157.
Definition a158 : R := Q2R q_a158.
Definition a1511 : R := Q2R q_a1511.
Definition a1512 : R := Q2R q_a1512.
Definition a1513 : R := Q2R q_a1513.
Definition a1514 : R := Q2R q_a1514.
Definition a161 : R := Q2R q_a161.
Definition a166 : R := Q2R q_a166.
Definition a167 : R := Q2R q_a167.
Definition a168 : R := Q2R q_a168.
Definition a169 : R := Q2R q_a169.
Definition a1613 : R := Q2R q_a1613.
Definition a1614 : R := Q2R q_a1614.
Definition a1615 : R := Q2R q_a1615.
Definition d41 : R := Q2R q_d41.
Definition d46 : R := Q2R q_d46.
Definition d47 : R := Q2R q_d47.
Definition d48 : R := Q2R q_d48.
Definition d49 : R := Q2R q_d49.
Definition d410 : R := Q2R q_d410.
Definition d411 : R := Q2R q_d411.
Definition d412 : R := Q2R q_d412.
Definition d413 : R := Q2R q_d413.
Definition d414 : R := Q2R q_d414.
Definition d415 : R := Q2R q_d415.
Definition d416 : R := Q2R q_d416.
Definition d51 : R := Q2R q_d51.
Definition d56 : R := Q2R q_d56.
Definition d57 : R := Q2R q_d57.
Definition d58 : R := Q2R q_d58.
Definition d59 : R := Q2R q_d59.
Definition d510 : R := Q2R q_d510.
Definition d511 : R := Q2R q_d511.
Definition d512 : R := Q2R q_d512.
Definition d513 : R := Q2R q_d513.
Definition d514 : R := Q2R q_d514.
Definition d515 : R := Q2R q_d515.
Definition d516 : R := Q2R q_d516.
Definition d61 : R := Q2R q_d61.
Definition d66 : R := Q2R q_d66.
Definition d67 : R := Q2R q_d67.
Definition d68 : R := Q2R q_d68.
Definition d69 : R := Q2R q_d69.
Definition d610 : R := Q2R q_d610.
Definition d611 : R := Q2R q_d611.
Definition d612 : R := Q2R q_d612.
Definition d613 : R := Q2R q_d613.
Definition d614 : R := Q2R q_d614.
Definition d615 : R := Q2R q_d615.
Definition d616 : R := Q2R q_d616.
Definition d71 : R := Q2R q_d71.
Definition d76 : R := Q2R q_d76.
Definition d77 : R := Q2R q_d77.
Definition d78 : R := Q2R q_d78.
Definition d79 : R := Q2R q_d79.
Definition d710 : R := Q2R q_d710.
Definition d711 : R := Q2R q_d711.
Definition d712 : R := Q2R q_d712.
Definition d713 : R := Q2R q_d713.
Definition d714 : R := Q2R q_d714.
Definition d715 : R := Q2R q_d715.
Definition d716 : R := Q2R q_d716.
