(** Tables of package/inference/integrate/d132re.f and d113re.f.

    The literals have 16 digits after the point; [lit m e] is 0.m times ten to
    the e in units of 1e-21, and abscissas are in units of 1e-16.  The rounding
    of the literals to doubles is not modelled. *)

From Coq Require Import List ZArith.
Import ListNotations.
Open Scope Z_scope.

Definition lit (m e : Z) : Z := m * 10 ^ (e + 5).

(** d132re.f:57-65 *)
Definition dim2g : list Z :=
  [2517129343453109; 7013933644534266; 9590960631619962; 9956010478552127;
   5000000000000000; 1594544658297559; 3808991135940188; 6582769255267192;
   8761473165029315; 9982431840531980; 9790222658168462; 6492284325645389;
   8727421201131239; 3582614645881228; 5666666666666666; 2077777777777778].

(** d132re.f:67-74 *)
Definition dim2w_1 : list Z :=
  [lit 3379692360134460 (-1); lit 9508589607597761 (-1); lit 1176006468056962 0;
   lit 2657774586326950 (-1); lit 1701441770200640 (-1); lit 0 0;
   lit 1626593098637410 (-1); lit 1344892658526199 0; lit 1328032165460149 0;
   lit 5637474769991870 (-1); lit 3908279081310500 (-2); lit 3012798777432150 (-1);
   lit 1030873234689166 0; lit 6250000000000000 (-1)].

(** d132re.f:76-83 *)
Definition dim2w_2 : list Z :=
  [lit 3213775489050763 0; lit (-1767341636743844) 0; lit 7347600537466072 (-1);
   lit (-3638022004364754) (-1); lit 2125297922098712 (-1); lit 1460984204026913 0;
   lit 1747613286152099 (-1); lit 1444954045641582 0; lit 1307687976001325 (-3);
   lit 5380992313941161 (-3); lit 1042259576889814 (-3); lit (-1401152865045733) (-2);
   lit 8041788181514763 (-2); lit (-1420416552759383) 0].

(** d132re.f:85-92 *)
Definition dim2w_3 : list Z :=
  [lit 3372900883288987 0; lit (-1644903060344491) 0; lit 7707849911634622 (-1);
   lit (-3804478358506310) (-1); lit 2223559940380806 (-1); lit 1480693879765931 0;
   lit 4467143702185814 (-5); lit 1508944767074130 0; lit 3647200107516215 (-4);
   lit 5777198999013880 (-3); lit 1041757313688177 (-3); lit (-1452822267047819) (-2);
   lit 8338339968783705 (-2); lit (-1472796329231960) 0].

(** d132re.f:94-101 *)
Definition dim2w_4 : list Z :=
  [lit (-8264123822525677) 0; lit 3065838614094360 0; lit 2389292538329435 (-2);
   lit (-1343024157997222) 0; lit 8833366840533900 (-1); lit 0 0;
   lit 9786283074168292 (-3); lit (-1319227889147519) 0; lit 7990012200150630 (-2);
   lit 3391747079760626 (-2); lit 2294915718283264 (-2); lit (-1358584986119197) (-1);
   lit 4025866859057809 (-1); lit 3760268580063992 (-2)].

(** d132re.f:103-110 *)
Definition dim2w_5 : list Z :=
  [lit 6539094339575232 0; lit (-2041614154424632) 0; lit (-1746981515794990) 0;
   lit 3937939671417803 (-1); lit 6974520545933992 (-2); lit 0 0;
   lit 6667702171778258 (-2); lit 5512960621544304 (-1); lit 5443846381278607 (-1);
   lit 2310903863953934 (-1); lit 1506937747477189 (-1); lit (-6057021648901890) (-1);
   lit 4225737654686337 (-1); lit 2561989142123099 (-1)].

(** d113re.f:62-69 *)
Definition dim3g : list Z :=
  [1900000000000000; 5000000000000000; 7500000000000000; 8000000000000000;
   9949999999999999; 9987344998351400; 7793703685672423; 9999698993088767;
   7902637224771788; 4403396687650737; 4378478459006862; 9549373822794593;
   9661093133630748; 4577105877763134].

(** d113re.f:71-77 *)
Definition dim3w_1 : list Z :=
  [lit 7923078151105734 (-2); lit 6797177392788080 (-1); lit 1086986538805825 (-2);
   lit 1838633662212829 0; lit 3362119777829031 (-1); lit 1013751123334062 (-1);
   lit 1687648683985235 (-2); lit 1346468564512807 0; lit 1750145884600386 (-2);
   lit 7752336383837454 (-1); lit 2461864902770251 0; lit 6797944868483039 (-1);
   lit 1419962823300713 (-1)].

(** d113re.f:79-85 *)
Definition dim3w_2 : list Z :=
  [lit 1715006248224684 1; lit (-3755893815889209) 0; lit 1488632145140549 0;
   lit (-2497046640620823) 0; lit 1792501419135204 0; lit 3446126758973890 (-2);
   lit (-5140483185555825) (-2); lit 6536017839876425 (-2); lit (-6513454939229700) (-3);
   lit (-6304672433547204) (-2); lit 1266959399788263 (-1); lit (-5454241018647931) (-2);
   lit 4826995274768427 (-2)].

(** d113re.f:87-93 *)
Definition dim3w_3 : list Z :=
  [lit 1936014978949526 1; lit (-3673449403754268) 0; lit 2929778657898176 (-1);
   lit (-1151883520260315) 0; lit 5086658220872218 (-1); lit 4453911087786469 (-1);
   lit (-2287828257125900) (-1); lit 2908926216345833 (-1); lit (-2898884350669207) (-2);
   lit (-2805963413307495) (-1); lit 5638741361145884 (-1); lit (-2427469611942451) (-1);
   lit 2148307034182882 (-1)].

(** d113re.f:95-101 *)
Definition dim3w_4 : list Z :=
  [lit 5170828195605760 0; lit 1445269144914044 (-1); lit (-3601489663995932) 0;
   lit 3628307003418485 0; lit 7148802650872729 (-2); lit (-9222852896022966) (-1);
   lit 1719339732471725 (-1); lit (-1021416537460350) 0; lit (-7504397861080493) (-2);
   lit 1648362537726711 (-1); lit 5234610158469334 (-1); lit 1445432331613066 (-1);
   lit 3019236275367777 (-2)].

(** d113re.f:103-109 *)
Definition dim3w_5 : list Z :=
  [lit 2054404503818520 1; lit 1377759988490120 (-1); lit (-5768062917904410) 0;
   lit 3726835047700328 (-1); lit 6814878939777219 (-2); lit 5723169733851849 (-1);
   lit (-4493018743811285) (-1); lit 2729236573866348 (-1); lit 3547473950556990 (-3);
   lit 1571366799739551 (-1); lit 4990099219278567 (-1); lit 1377915552666770 (-1);
   lit 2878206423099872 (-2)].
