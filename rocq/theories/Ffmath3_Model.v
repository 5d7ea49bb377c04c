(** factorial, the gamma functions, beta and the large-n formula of the Laguerre
    polynomials of src/ffmath.cpp, in binary32.  Coefficients are the bit
    patterns of the floats nearest to the decimal literals of the source, which
    are quoted beside them; [a - c] is written [a + (-c)]. *)
From Coq Require Import ZArith List Bool.
From Flocq Require Import IEEE754.Binary IEEE754.Bits.
From Verif Require Import Base Arith Bits32 Ffmath_Model Ffmath2_Model.
Import ListNotations.
Open Scope Z_scope.

(** ffmath.cpp:1250-1271 *)
Definition ft : list float :=
  [ ofU 1065353216 (* 1.0F *);
    ofU 1065353216 (* 1.0F *);
    ofU 1073741824 (* 2.0F *);
    ofU 1086324736 (* 6.0F *);
    ofU 1103101952 (* 24.0F *);
    ofU 1123024896 (* 120.0F *);
    ofU 1144258560 (* 720.0F *);
    ofU 1167949824 (* 5040.0F *);
    ofU 1193115648 (* 40320.0F *);
    ofU 1219571712 (* 362880.0F *);
    ofU 1247640576 (* 3628800.0F *);
    ofU 1276659008 (* 39916800.0F *);
    ofU 1306814432 (* 479001600.0F *);
    ofU 1337562214 (* 6227020800.0F *);
    ofU 1369596377 (* 87178291200.0F *);
    ofU 1402485692 (* 1307674368000.0F *);
    ofU 1436040124 (* 20922789888000.0F *);
    ofU 1470218103 (* 355687428096000.0F *);
    ofU 1505097574 (* 6402373705728001.0F *);
    ofU 1540888010 (* 121645100408832000.0F *);
    ofU 1577520542 (* 2432902008176640000.0F *);
    ofU 1613840863 (* 51090942171709440000.0F *);
    ofU 1651751571 (* 1124000727777607680000.0F *);
    ofU 1689202202 (* 25852016738884978212864.0F *);
    ofU 1728275091 (* 620448401733239544217600.0F *);
    ofU 1766672902 (* 15511210043330988202786816.0F *);
    ofU 1806093349 (* 403291461126605719042260992.0F *);
    ofU 1846328383 (* 10888869450418351940239884288.0F *);
    ofU 1886800239 (* 304888344611713836734530715648.0F *);
    ofU 1927230092 (* 8841761993739700772720181510144.0F *);
    ofU 1968258915 (* 265252859812191104246398737973248.0F *);
    ofU 2009773416 (* 8222838654177921277277005322125312.0F *);
    ofU 2051716456 (* 263130836933693591553328612565319680.0F *);
    ofU 2094074644 (* 8683317618811885938715673895318323200.0F *);
    ofU 2136873925 (* 295232799039604119555149671006000381952.0F *) ].
(** factorial: ffmath.cpp:1248-1284; the conversion to size_t is only reached between 0 and 34 *)
Definition factorial (x : float) : res float :=
  if (flit 34 1 <? x)%b32 then Ok limInf
  else if (flit 0 1 <=? x)%b32 then i <- toI32 x ;; get ft i
  else Ok limNan.

(** One line of a chain of assignments per coefficient. *)
Definition chain (step : float -> float -> float) (start : float) (cs : list float) : float := fold_left step cs start.

(** ffmath.cpp:1009-1024, the lines for num *)
Definition gamma_num : list float :=
  [ ofU 3218844660 (* -1.71618513886549492533811e+0F *); ofU 1103503374 (* 2.47656508055759199108314e+1F *);
    ofU 3284002546 (* -3.79804256470945635097577e+2F *); ofU 1142773042 (* 6.29331155312818442661052e+2F *);
    ofU 1146666454 (* 8.66966202790413211295064e+2F *); ofU 3337991820 (* -3.14512729688483675254357e+4F *);
    ofU 3339530346 (* -3.61444134186911729807069e+4F *); ofU 1199688722 (* 6.64561438202405440627855e+4F *) ].
(** ffmath.cpp:1010-1024, the lines for den *)
Definition gamma_den : list float :=
  [ ofU 3254171851 (* -3.08402300119738975254353e+1F *); ofU 1134406881 (* 3.15350626979604161529144e+2F *);
    ofU 3296578050 (* -1.01515636749021914166146e+3F *); ofU 3309452377 (* -3.10777167157231109440444e+3F *);
    ofU 1185944637 (* 2.25381184209801510330112e+4F *); ofU 1167367877 (* 4.75584627752788110767815e+3F *);
    ofU 3355672829 (* -1.34659959864969306392456e+5F *); ofU 3353402913 (* -1.15132259675553483497211e+5F *) ].
(** ffmath.cpp:1009-1026 *)
Definition gamma_ratio (z : float) : float :=
  ((chain (fun num c => z * (num + c)) (flit 0 1) gamma_num / chain (fun den c => (den * z) + c) (flit 1 1) gamma_den) + flit 1 1)%b32.
(** ffmath.cpp:1031-1034: [n] turns *)
Fixpoint gamma_up (n : nat) (y result : float) : float :=
  match n with
  | O => result
  | S k => gamma_up k (y + flit 1 1)%b32 (result * y)%b32
  end.
(** ffmath.cpp:1041-1047 and 1191-1197 *)
Definition stirling : list float :=
  [ ofU 3136972766 (* -1.910444077728e-03F *); ofU 979150454 (* 8.4171387781295e-04F *);
    ofU 3122399679 (* -5.952379913043012e-04F *); ofU 978324737 (* 7.93650793500350248e-04F *);
    ofU 3140881249 (* -2.777777777777681622553e-03F *); ofU 1034594987 (* 8.333333333333333331554247e-02F *) ].
Definition stirling_sum (yy : float) : float := chain (fun s c => (s / yy) + c)%b32 (ofU 1002114404) stirling. (* 5.7083835261e-03F *)
(** FFP_LN_SQRT_2PI, FFP_PI_4: ffmath.hpp:1091, 1073 *)
Definition fLN_SQRT_2PI : float := ofU 1063993230. (* 0.918938533204672669540968854562379419F *)
Definition fPI_4 : float := ofU 1061752795. (* 0.785398163397448278999490867136046290F *)
(** 171.624F *)
Definition xBig : float := ofU 1126932414.

(** tgamma, ffmath.cpp:984-1057: the part after the argument [y] has been made
    positive; [x] is the original argument *)
Definition tgamma_pos (x y : float) : res float :=
  if (y <? limEps)%b32 then Ok (if (limMin <=? y)%b32 then (flit 1 1 / y)%b32 else limInf)
  else if (y <? flit 12 1)%b32 then
    if (y <? flit 1 1)%b32 then
      let y1 := y in let z := y in let y := (y + flit 1 1)%b32 in
      let result := gamma_ratio z in
      Ok (if (y1 <? y)%b32 then (result / y1)%b32 else if (y <? y1)%b32 then gamma_up 0 y result else result)
    else
      let y1 := y in
      i <- toI32 y ;; n <- i32 (i - 1) ;;
      let y := (y - b32_ofZ n)%b32 in let z := (y - flit 1 1)%b32 in
      let result := gamma_ratio z in
      Ok (if (y1 <? y)%b32 then (result / y1)%b32 else if (y <? y1)%b32 then gamma_up (Z.to_nat n) y result else result)
  else if (x <=? xBig)%b32 then
    let yy := (y * y)%b32 in
    let sum := ((stirling_sum yy / y) - y + fLN_SQRT_2PI)%b32 in
    let sum := (sum + ((y - flit 1 2) * flog y))%b32 in
    fexp sum
  else Ok limInf.
(** tgamma: ffmath.cpp:943-1066; goto EXIT_TGAMMA returns NaN at once *)
Definition tgamma (x : float) : res float :=
  match classify x with
  | FFP_NAN => Ok limNan
  | FFP_ZERO => Ok limInf
  | FFP_INFINITE => Ok (if (flit 0 1 <? x)%b32 then limInf else limNan)
  | _ =>
      let finish (parity : bool) (fact result : float) :=
        let result := if parity then (- result)%b32 else result in
        if fisEqual0 fact (flit 1 1) then result else (fact / result)%b32 in
      if (x <=? flit 0 1)%b32 then
        let y := (- x)%b32 in
        let y1 := trunc y in
        let isItAnInt := (y - y1)%b32 in
        if fisEqual0 (flit 0 1) isItAnInt then Ok limNan
        else
          let tmp := (flit 2 1 * trunc (y1 * flit 1 2))%b32 in
          let parity := negb (fisEqual0 y1 tmp) in
          let fact := ((- fPI) / fsin (fPI * isItAnInt))%b32 in
          r <- tgamma_pos x (y + flit 1 1)%b32 ;; Ok (finish parity fact r)
      else r <- tgamma_pos x x ;; Ok (finish false (flit 1 1) r)
  end.

(** num = ( num*xMinus ) + c, den = ( den*xMinus ) + c, and num/den *)
Definition ratio (d0 : float) (num den : list float) (x : float) : float :=
  (chain (fun n c => (n * x) + c) (flit 0 1) num / chain (fun d c => (d * x) + c) d0 den)%b32.
(** ffmath.cpp:1101-1116 *)
Definition lg_p1_num : list float :=
  [ ofU 1084112734 (* 4.945235359296727046734888e+0F *); ofU 1128910767 (* 2.018112620856775083915565e+2F *);
    ofU 1158622570 (* 2.290838373831346393026739e+3F *); ofU 1177607856 (* 1.131967205903380828685045e+4F *);
    ofU 1189026430 (* 2.855724635671635335736389e+4F *); ofU 1192645878 (* 3.848496228443793359990269e+4F *);
    ofU 1187910394 (* 2.637748787624195437963534e+4F *); ofU 1172426371 (* 7.225813979700288197698961e+3F *) ].
(** ffmath.cpp:1101-1116 *)
Definition lg_p1_den : list float :=
  [ ofU 1116141273 (* 6.748212550303777196073036e+1F *); ofU 1149971107 (* 1.113332393857199323513008e+3F *);
    ofU 1173476878 (* 7.738757056935398733233834e+3F *); ofU 1188556734 (* 2.763987074403340708898585e+4F *);
    ofU 1196871962 (* 5.499310206226157329794414e+4F *); ofU 1198566201 (* 6.161122180066002127833352e+4F *);
    ofU 1192099655 (* 3.635127591501940507276287e+4F *); ofU 1175012901 (* 8.785536302431013170870835e+3F *) ].
(** ffmath.cpp:1122-1137, again 1144-1159 *)
Definition lg_p2_num : list float :=
  [ ofU 1084174333 (* 4.974607845568932035012064e+0F *); ofU 1141348989 (* 5.424138599891070494101986e+2F *);
    ofU 1181895617 (* 1.550693864978364947665077e+4F *); ofU 1211397715 (* 1.847932904445632425417223e+5F *);
    ofU 1233442406 (* 1.088204769468828767498470e+6F *); ofU 1246477988 (* 3.338152967987029735917223e+6F *);
    ofU 1251727307 (* 5.106661678927352456275255e+6F *); ofU 1245421812 (* 3.074109054850539556250927e+6F *) ].
(** ffmath.cpp:1122-1137, again 1144-1159 *)
Definition lg_p2_den : list float :=
  [ ofU 1127680104 (* 1.830328399370592604055942e+2F *); ofU 1173530725 (* 7.765049321445005871323047e+3F *);
    ofU 1208095128 (* 1.331903827966074194402448e+5F *); ofU 1233830415 (* 1.136705821321969608938755e+6F *);
    ofU 1252049912 (* 5.267964117437946917577538e+6F *); ofU 1263369607 (* 1.346701454311101692290052e+7F *);
    ofU 1267204883 (* 1.782736530353274213975932e+7F *); ofU 1259435688 (* 9.533095591844353613395747e+6F *) ].
(** ffmath.cpp:1166-1181 *)
Definition lg_p4_num : list float :=
  [ ofU 1181115414 (* 1.474502166059939948905062e+04F *); ofU 1242832629 (* 2.426813369486704502836312e+06F *);
    ofU 1290252861 (* 1.214755574045093227939592e+08F *); ofU 1327415489 (* 2.663432449630976949898078e+09F *);
    ofU 1356534599 (* 2.940378956634553899906876e+10F *); ofU 1377735351 (* 1.702665737765398868392998e+11F *);
    ofU 1390765055 (* 4.926125793377430887588120e+11F *); ofU 1392674781 (* 5.606251856223951465078242e+11F *) ].
(** ffmath.cpp:1166-1181 *)
Definition lg_p4_den : list float :=
  [ ofU 1160259708 (* 2.690530175870899333379843e+03F *); ofU 1226578377 (* 6.393885654300092398984238e+05F *);
    ofU 1277018808 (* 4.135599930241388052042842e+07F *); ofU 1317379661 (* 1.120872109616147941376570e+09F *);
    ofU 1348325915 (* 1.488613728678813811542398e+10F *); ofU 1371366649 (* 1.016803586272438228077304e+11F *);
    ofU 1386161022 (* 3.417476345507377132798597e+11F *); ofU 1389352190 (* 4.463158187419713286462081e+11F *) ].
Definition d1 : float := ofU 3205743720. (* -5.772156649015328605195174e-1F *)
Definition d2 : float := ofU 1054373680. (* 4.227843350984671393993777e-1F *)
Definition d4 : float := ofU 1071994976. (* 1.791759469228055000094023e+0F *)
Definition pnt68 : float := ofU 1059979264. (* 0.6796875F *)
(** lgamma_positive: ffmath.cpp:1068-1205; the test y <= 4294967296.878F always
    holds where it is made, because x <= 171.624F *)
Definition lgamma_positive (x : float) : float :=
  if (xBig <? x)%b32 then limInf
  else
    let y := x in
    if (y <=? limEps)%b32 then (- flog y)%b32
    else if (y <=? flit 3 2)%b32 then
      let '(corrector, xMinus) := if (y <? pnt68)%b32 then ((- flog y)%b32, y) else (flit 0 1, ((y - flit 1 2) - flit 1 2)%b32) in
      if (y <=? flit 1 2)%b32 || (pnt68 <=? y)%b32 then
        (corrector + (xMinus * (d1 + xMinus * ratio (flit 1 1) lg_p1_num lg_p1_den xMinus)))%b32
      else
        let xMinus := ((y - flit 1 2) - flit 1 2)%b32 in
        (corrector + (xMinus * (d2 + xMinus * ratio (flit 1 1) lg_p2_num lg_p2_den xMinus)))%b32
    else if (y <=? flit 4 1)%b32 then
      let xMinus := (y - flit 2 1)%b32 in
      (xMinus * (d2 + xMinus * ratio (flit 1 1) lg_p2_num lg_p2_den xMinus))%b32
    else if (y <=? flit 12 1)%b32 then
      let xMinus := (y - flit 4 1)%b32 in
      (d4 + xMinus * ratio (- flit 1 1)%b32 lg_p4_num lg_p4_den xMinus)%b32
    else
      let result := if (y <=? ofU 1333788672)%b32 then stirling_sum (y * y)%b32 else flit 0 1 in
      let result := (result / y)%b32 in
      let corrector := flog y in
      let result := (result + (fLN_SQRT_2PI - (flit 1 2 * corrector)))%b32 in
      (result + (y * (corrector - flit 1 1)))%b32.
(** lgamma: ffmath.cpp:1207-1246 *)
Definition lgamma (x : float) : float :=
  match classify x with
  | FFP_NAN => limNan
  | FFP_ZERO | FFP_INFINITE => limInf
  | _ =>
      if (x <? flit 0 1)%b32 then
        if (x <=? ofU 3649044480)%b32 then limInf
        else
          let y := (- x)%b32 in
          let y1 := trunc y in
          let isItAnInt := (y - y1)%b32 in
          if fisEqual0 (flit 0 1) isItAnInt then limInf
          else
            let a := fsin (fPI * isItAnInt)%b32 in
            (flog (fPI / absolute (a * x)) - lgamma_positive (- x))%b32
      else lgamma_positive x
  end.
(** beta: ffmath.cpp:1522-1536 *)
Definition beta (x y : float) : res float :=
  if isNan x || isNan y then Ok limNan
  else fexp ((lgamma x + lgamma y) - lgamma (x + y))%b32.

(** poly_laguerre_large_n: ffmath.cpp:1321-1347; n is below 2^24 *)
Definition laguerre_large_n (n : nat) (alpha x : float) : res float :=
  let m := b32_ofZ (Z.of_nat n) in
  let a := (- m)%b32 in
  let b := (alpha + flit 1 1)%b32 in
  let eta := ((flit 2 1 * b) - (flit 4 1 * a))%b32 in
  let cos2th := (x / eta)%b32 in
  let sin2th := (flit 1 1 - cos2th)%b32 in
  let th := facos (sqrt cos2th) in
  let pre_h := ((ofU 1075702246) * eta * eta * cos2th * sin2th)%b32 in (* 2.467401100272339498076235031476244330406188964F *)
  let lg_b := lgamma (b + m)%b32 in
  let ln_fact := lgamma (m + flit 1 1)%b32 in
  let preTerm1 := (flit 1 2 * (flit 1 1 - b) * flog (flit 1 4 * x * eta))%b32 in
  let preTerm2 := (flit 1 4 * flog pre_h)%b32 in
  let lnPre := (lg_b - ln_fact + (flit 1 2 * x) + preTerm1 - preTerm2)%b32 in
  let serTerm1 := fsin (fPI * a)%b32 in
  let th2 := (flit 2 1 * th)%b32 in
  let serTerm2 := fsin (flit 1 4 * eta * (th2 - fsin th2) + fPI_4)%b32 in
  e <- fexp lnPre ;; Ok (e * (serTerm1 + serTerm2))%b32.
