(** Model of the 1D quadrature tables and of the tensor quadrature rules of elements/elements.cpp
    (126-1158, 1168-1261, 1330-1352, 1409-1918) and of the copy of the Lobatto node table in
    swage/swage.cpp (63-327).  The tables are transcribed mechanically.  doubles are exact reals: a
    decimal literal stands for the decimal number it spells (the compiler rounds it to the nearest
    double), sqrt is the real square root, a division by zero is the outcome DivZero, unset memory is
    [None]. *)
From Coq Require Import List Arith ZArith Reals.
Import ListNotations.
Require Import Verif.Base Verif.RBase.
Local Open Scope nat_scope.

(** the decimal literal with digits [m] and [k] of them behind the point *)
Definition dec (m : Z) (k : nat) : R := (IZR m / IZR (10 ^ Z.of_nat k))%R.
Definition decs (l : list (Z * nat)) : list R := map (fun p => dec (fst p) (snd p)) l.

(** the consecutive assignments a(i) = v0; a(i+1) = v1; ... *)
Fixpoint stores (a : list (option R)) (i : nat) (vs : list R) : res (list (option R)) :=
  match vs with [] => Ok a | v :: vs' => do a' <- set a i (Some v); stores a' (S i) vs' end.

(** elements/elements.cpp:129-392, the values lobatto_nodes_1D assigns to entries 0, 1, ... in that order *)
Definition lobatto_nodes_tab (num : Z) : list R :=
  match num with
  | 1 => decs [(0, 0%nat)]
  | 2 => decs [(-1, 0%nat); (1, 0%nat)]
  | 3 => decs [(-1, 0%nat); (0, 0%nat); (1, 0%nat)]
  | 4 => [(- 1)%R; (- 1/5*sqrt(5))%R; (1/5*sqrt(5))%R; (1)%R]
  | 5 => [(- 1)%R; (- 1/7*sqrt(21))%R; (0)%R; (1/7*sqrt(21))%R; (1)%R]
    | 6 => [(- 1)%R; (- sqrt(1/21*(7 + 2*sqrt(7))))%R; (- sqrt(1/21*(7 - 2*sqrt(7))))%R; (sqrt(1/21*(7 - 2*sqrt(7))))%R; (sqrt(1/21*(7
      +2*sqrt(7))))%R; (1)%R]
    | 7 => decs [(-1, 0%nat); (-830223896278566929872032213967, 30%nat); (-468848793470714213803771881909, 30%nat); (0, 0%nat);
      (468848793470714213803771881909, 30%nat); (830223896278566929872032213967, 30%nat); (1, 0%nat)]
    | 8 => decs [(-1, 0%nat); (-871740148509606615337445761221, 30%nat); (-591700181433142302144510731398, 30%nat); (-209299217902478868768657260345,
      30%nat); (209299217902478868768657260345, 30%nat); (591700181433142302144510731398, 30%nat); (871740148509606615337445761221, 30%nat); (1,
      0%nat)]
    | 9 => decs [(-1, 0%nat); (-899757995411460157312345244418, 30%nat); (-677186279510737753445885427091, 30%nat); (-363117463826178158710752068709,
      30%nat); (0, 0%nat); (363117463826178158710752068709, 30%nat); (677186279510737753445885427091, 30%nat); (899757995411460157312345244418,
      30%nat); (1, 0%nat)]
    | 10 => decs [(-1, 0%nat); (-919533908166458813828932660822, 30%nat); (-73877386510550507500310617486, 29%nat); (-477924949810444495661175092731,
      30%nat); (-165278957666387024626219765958, 30%nat); (165278957666387024626219765958, 30%nat); (477924949810444495661175092731, 30%nat);
      (73877386510550507500310617486, 29%nat); (919533908166458813828932660822, 30%nat); (1, 0%nat)]
    | 11 => decs [(-1, 0%nat); (-934001430408059134332274136099, 30%nat); (-784483473663144418622417816108, 30%nat); (-565235326996205006470963969478,
      30%nat); (-295758135586939391431911515559, 30%nat); (0, 0%nat); (295758135586939391431911515559, 30%nat); (565235326996205006470963969478,
      30%nat); (784483473663144418622417816108, 30%nat); (934001430408059134332274136099, 30%nat); (1, 0%nat)]
    | 12 => decs [(-1, 0%nat); (-944899272222882223407580138303, 30%nat); (-819279321644006678348641581717, 30%nat); (-632876153031869677662404854444,
      30%nat); (-399530940965348932264349791567, 30%nat); (-13655293285492755486406185574, 29%nat); (13655293285492755486406185574, 29%nat);
      (399530940965348932264349791567, 30%nat); (632876153031869677662404854444, 30%nat); (819279321644006678348641581717, 30%nat);
      (944899272222882223407580138303, 30%nat); (1, 0%nat)]
    | 13 => decs [(-1, 0%nat); (-953309846642163911896905464755, 30%nat); (-846347564651872316865925607099, 30%nat); (-686188469081757426072759039566,
      30%nat); (-482909821091336201746937233637, 30%nat); (-249286930106239992568673700374, 30%nat); (0, 0%nat); (249286930106239992568673700374,
      30%nat); (482909821091336201746937233637, 30%nat); (686188469081757426072759039566, 30%nat); (846347564651872316865925607099, 30%nat);
      (953309846642163911896905464755, 30%nat); (1, 0%nat)]
    | 14 => decs [(-1, 0%nat); (-959935045267260901355100162015, 30%nat); (-867801053830347251000220202908, 30%nat); (-728868599091326140584672400521,
      30%nat); (-550639402928647055316622705859, 30%nat); (-342724013342712845043903403642, 30%nat); (-116331868883703867658776709736, 30%nat);
      (116331868883703867658776709736, 30%nat); (342724013342712845043903403642, 30%nat); (550639402928647055316622705859, 30%nat);
      (728868599091326140584672400521, 30%nat); (867801053830347251000220202908, 30%nat); (959935045267260901355100162015, 30%nat); (1, 0%nat)]
    | 15 => decs [(-1, 0%nat); (-96524592650383857279585139207, 29%nat); (-885082044222976298825401631482, 30%nat); (-763519689951815200704118475976,
      30%nat); (-606253205469845711123529938637, 30%nat); (-420638054713672480921896938739, 30%nat); (-215353955363794238225679446273, 30%nat); (0,
      0%nat); (215353955363794238225679446273, 30%nat); (420638054713672480921896938739, 30%nat); (606253205469845711123529938637, 30%nat);
      (763519689951815200704118475976, 30%nat); (885082044222976298825401631482, 30%nat); (96524592650383857279585139207, 29%nat); (1, 0%nat)]
    | 16 => decs [(-1, 0%nat); (-969568046270217932952242738367, 30%nat); (-89920053309347209299462826152, 29%nat); (-792008291861815063931088270963,
      30%nat); (-652388702882493089467883219641, 30%nat); (-486059421887137611781890785847, 30%nat); (-299830468900763208098353454722, 30%nat);
      (-101326273521949447843033005046, 30%nat); (101326273521949447843033005046, 30%nat); (299830468900763208098353454722, 30%nat);
      (486059421887137611781890785847, 30%nat); (652388702882493089467883219641, 30%nat); (792008291861815063931088270963, 30%nat);
      (89920053309347209299462826152, 29%nat); (969568046270217932952242738367, 30%nat); (1, 0%nat)]
    | 17 => decs [(-1, 0%nat); (-973132176631418314156979501874, 30%nat); (-910879995915573595623802506398, 30%nat); (-815696251221770307106750553238,
      30%nat); (-691028980627684705394919357372, 30%nat); (-541385399330101539123733407504, 30%nat); (-372174433565477041907234680735, 30%nat);
      (-189511973518317388304263014753, 30%nat); (0, 0%nat); (189511973518317388304263014753, 30%nat); (372174433565477041907234680735, 30%nat);
      (541385399330101539123733407504, 30%nat); (691028980627684705394919357372, 30%nat); (815696251221770307106750553238, 30%nat);
      (910879995915573595623802506398, 30%nat); (973132176631418314156979501874, 30%nat); (1, 0%nat)]
    | 18 => decs [(-1, 0%nat); (-976105557412198542864518924342, 30%nat); (-920649185347533873837854625431, 30%nat); (-835593535218090213713646362328,
      30%nat); (-723679329283242681306210365302, 30%nat); (-588504834318661761173535893194, 30%nat); (-434415036912123975342287136741, 30%nat);
      (-266362652878280984167665332026, 30%nat); (-897490934846521110226450100886, 31%nat); (897490934846521110226450100886, 31%nat);
      (266362652878280984167665332026, 30%nat); (434415036912123975342287136741, 30%nat); (588504834318661761173535893194, 30%nat);
      (723679329283242681306210365302, 30%nat); (835593535218090213713646362328, 30%nat); (920649185347533873837854625431, 30%nat);
      (976105557412198542864518924342, 30%nat); (1, 0%nat)]
    | 19 => decs [(-1, 0%nat); (-97861176622208009515263406311, 29%nat); (-928901528152586243717940258797, 30%nat); (-852460577796646093085955970041,
      30%nat); (-751494202552613014163637489634, 30%nat); (-628908137265220497766832306229, 30%nat); (-488229285680713502777909637625, 30%nat);
      (-333504847824498610298500103845, 30%nat); (-169186023409281571375154153445, 30%nat); (0, 0%nat); (169186023409281571375154153445, 30%nat);
      (333504847824498610298500103845, 30%nat); (488229285680713502777909637625, 30%nat); (628908137265220497766832306229, 30%nat);
      (751494202552613014163637489634, 30%nat); (852460577796646093085955970041, 30%nat); (928901528152586243717940258797, 30%nat);
      (97861176622208009515263406311, 29%nat); (1, 0%nat)]
    | 20 => decs [(-1, 0%nat); (-980743704893914171925446438584, 30%nat); (-935934498812665435716181584931, 30%nat); (-866877978089950141309847214616,
      30%nat); (-775368260952055870414317527595, 30%nat); (-663776402290311289846403322971, 30%nat); (-534992864031886261648135961829, 30%nat);
      (-392353183713909299386474703816, 30%nat); (-239551705922986495182401356927, 30%nat); (-805459372388218379759445181596, 31%nat);
      (805459372388218379759445181596, 31%nat); (239551705922986495182401356927, 30%nat); (392353183713909299386474703816, 30%nat);
      (534992864031886261648135961829, 30%nat); (663776402290311289846403322971, 30%nat); (775368260952055870414317527595, 30%nat);
      (866877978089950141309847214616, 30%nat); (935934498812665435716181584931, 30%nat); (980743704893914171925446438584, 30%nat); (1, 0%nat)]
  | _ => []
  end%Z.

(** elements/elements.cpp:403-664, the values lobatto_weights_1D assigns to entries 0, 1, ... *)
Definition lobatto_weights_tab (num : Z) : list R :=
  match num with
  | 1 => decs [(2, 0%nat)]
  | 2 => decs [(1, 0%nat); (1, 0%nat)]
  | 3 => [(1/3)%R; (4/3)%R; (1/3)%R]
  | 4 => [(1/6)%R; (5/6)%R; (5/6)%R; (1/6)%R]
  | 5 => [(1/10)%R; (49/90)%R; (32/45)%R; (49/90)%R; (1/10)%R]
  | 6 => [(1/15)%R; (1/30*(14 - sqrt(7)))%R; (1/30*(14 + sqrt(7)))%R; (1/30*(14 + sqrt(7)))%R; (1/30*(14 - sqrt(7)))%R; (1/15)%R]
    | 7 => decs [(47619047619047619047619047619, 30%nat); (27682604736156594801070040629, 29%nat); (431745381209862623417871022281, 30%nat);
      (487619047619047619047619047619, 30%nat); (431745381209862623417871022281, 30%nat); (27682604736156594801070040629, 29%nat);
      (47619047619047619047619047619, 30%nat)]
    | 8 => decs [(357142857142857142857142857143, 31%nat); (210704227143506039382991065776, 30%nat); (341122692483504364764240677108, 30%nat);
      (412458794658703881567052971402, 30%nat); (412458794658703881567052971402, 30%nat); (341122692483504364764240677108, 30%nat);
      (210704227143506039382991065776, 30%nat); (357142857142857142857142857143, 31%nat)]
    | 9 => decs [(277777777777777777777777777778, 31%nat); (165495361560805525046339720029, 30%nat); (274538712500161735280705618579, 30%nat);
      (34642851097304634511513153214, 29%nat); (371519274376417233560090702948, 30%nat); (34642851097304634511513153214, 29%nat);
      (274538712500161735280705618579, 30%nat); (165495361560805525046339720029, 30%nat); (277777777777777777777777777778, 31%nat)]
    | 10 => decs [(222222222222222222222222222222, 31%nat); (133305990851070111126227170755, 30%nat); (224889342063126452119457821731, 30%nat);
      (292042683679683757875582257374, 30%nat); (327539761183897456656510527917, 30%nat); (327539761183897456656510527917, 30%nat);
      (292042683679683757875582257374, 30%nat); (224889342063126452119457821731, 30%nat); (133305990851070111126227170755, 30%nat);
      (222222222222222222222222222222, 31%nat)]
    | 11 => decs [(181818181818181818181818181818, 31%nat); (10961227326699486446140344958, 29%nat); (187169881780305204108141521899, 30%nat);
      (248048104264028314040084866422, 30%nat); (286879124779008088679222403332, 30%nat); (30021759545569069378593188117, 29%nat);
      (286879124779008088679222403332, 30%nat); (248048104264028314040084866422, 30%nat); (187169881780305204108141521899, 30%nat);
      (10961227326699486446140344958, 29%nat); (181818181818181818181818181818, 31%nat)]
    | 12 => decs [(151515151515151515151515151515, 31%nat); (916845174131961306683425941341, 31%nat); (1579747055643701151646710627, 28%nat);
      (212508417761021145358302077367, 30%nat); (251275603199201280293244412148, 30%nat); (2714052409106961770002883385, 28%nat);
      (2714052409106961770002883385, 28%nat); (251275603199201280293244412148, 30%nat); (212508417761021145358302077367, 30%nat);
      (1579747055643701151646710627, 28%nat); (916845174131961306683425941341, 31%nat); (151515151515151515151515151515, 31%nat)]
    | 13 => decs [(128205128205128205128205128205, 31%nat); (778016867468189277935889883331, 31%nat); (134981926689608349119914762589, 30%nat);
      (183646865203550092007494258747, 30%nat); (220767793566110086085534008379, 30%nat); (24401579030667635645857814836, 29%nat);
      (251930849333446736044138641541, 30%nat); (24401579030667635645857814836, 29%nat); (220767793566110086085534008379, 30%nat);
      (183646865203550092007494258747, 30%nat); (134981926689608349119914762589, 30%nat); (778016867468189277935889883331, 31%nat);
      (128205128205128205128205128205, 31%nat)]
    | 14 => decs [(10989010989010989010989010989, 30%nat); (668372844976812846340706607461, 31%nat); (116586655898711651540996670655, 30%nat);
      (160021851762952142412820997988, 30%nat); (194826149373416118640331778376, 30%nat); (219126253009770754871162523954, 30%nat);
      (231612794468457058889628357293, 30%nat); (231612794468457058889628357293, 30%nat); (219126253009770754871162523954, 30%nat);
      (194826149373416118640331778376, 30%nat); (160021851762952142412820997988, 30%nat); (116586655898711651540996670655, 30%nat);
      (668372844976812846340706607461, 31%nat); (10989010989010989010989010989, 30%nat)]
    | 15 => decs [(952380952380952380952380952381, 32%nat); (580298930286012490968805840253, 31%nat); (101660070325718067603666170789, 30%nat);
      (140511699802428109460446805644, 30%nat); (172789647253600949052077099408, 30%nat); (196987235964613356092500346507, 30%nat);
      (211973585926820920127430076977, 30%nat); (217048116348815649514950214251, 30%nat); (211973585926820920127430076977, 30%nat);
      (196987235964613356092500346507, 30%nat); (172789647253600949052077099408, 30%nat); (140511699802428109460446805644, 30%nat);
      (101660070325718067603666170789, 30%nat); (580298930286012490968805840253, 31%nat); (952380952380952380952380952381, 32%nat)]
    | 16 => decs [(833333333333333333333333333333, 32%nat); (508503610059199054032449195655, 31%nat); (893936973259308009910520801661, 31%nat);
      (124255382132514098349536332657, 30%nat); (154026980807164280815644940485, 30%nat); (177491913391704125301075669528, 30%nat);
      (193690023825203584316913598854, 30%nat); (201958308178229871489199125411, 30%nat); (201958308178229871489199125411, 30%nat);
      (193690023825203584316913598854, 30%nat); (177491913391704125301075669528, 30%nat); (154026980807164280815644940485, 30%nat);
      (124255382132514098349536332657, 30%nat); (893936973259308009910520801661, 31%nat); (508503610059199054032449195655, 31%nat);
      (833333333333333333333333333333, 32%nat)]
    | 17 => decs [(735294117647058823529411764706, 32%nat); (449219405432542096474009546232, 31%nat); (791982705036871191902644299528, 31%nat);
      (11059290900702816137577270522, 29%nat); (137987746201926559056201574954, 30%nat); (160394661997621539516328365865, 30%nat);
      (177004253515657870436945745363, 30%nat); (187216339677619235892088482861, 30%nat); (190661874753469433299407247028, 30%nat);
      (187216339677619235892088482861, 30%nat); (177004253515657870436945745363, 30%nat); (160394661997621539516328365865, 30%nat);
      (137987746201926559056201574954, 30%nat); (11059290900702816137577270522, 29%nat); (791982705036871191902644299528, 31%nat);
      (449219405432542096474009546232, 31%nat); (735294117647058823529411764706, 32%nat)]
    | 18 => decs [(653594771241830065359477124183, 32%nat); (399706288109140661375991764101, 31%nat); (706371668856336649992229601678, 31%nat);
      (990162717175028023944236053187, 31%nat); (124210533132967100263396358897, 30%nat); (145411961573802267983003210494, 30%nat);
      (1619395172376024892643267067, 28%nat); (173262109489456226010614403827, 30%nat); (179015863439703082293818806944, 30%nat);
      (179015863439703082293818806944, 30%nat); (173262109489456226010614403827, 30%nat); (1619395172376024892643267067, 28%nat);
      (145411961573802267983003210494, 30%nat); (124210533132967100263396358897, 30%nat); (990162717175028023944236053187, 31%nat);
      (706371668856336649992229601678, 31%nat); (399706288109140661375991764101, 31%nat); (653594771241830065359477124183, 32%nat)]
    | 19 => decs [(584795321637426900584795321637, 32%nat); (357933651861764771154255690351, 31%nat); (633818917626297368516956904183, 31%nat);
      (891317570992070844480087905562, 31%nat); (112315341477305044070910015464, 30%nat); (13226728044875077692604673391, 29%nat);
      (148413942595938885009680643668, 30%nat); (160290924044061241979910968184, 30%nat); (16755658452714286727013727774, 29%nat);
      (170001919284827234644672715617, 30%nat); (16755658452714286727013727774, 29%nat); (160290924044061241979910968184, 30%nat);
      (148413942595938885009680643668, 30%nat); (13226728044875077692604673391, 29%nat); (112315341477305044070910015464, 30%nat);
      (891317570992070844480087905562, 31%nat); (633818917626297368516956904183, 31%nat); (357933651861764771154255690351, 31%nat);
      (584795321637426900584795321637, 32%nat)]
    | 20 => decs [(526315789473684210526315789474, 32%nat); (322371231884889414916050281173, 31%nat); (571818021275668260047536271732, 31%nat);
      (806317639961196031447768461137, 31%nat); (101991499699450815683781205733, 30%nat); (120709227628674725099429705002, 30%nat);
      (136300482358724184489780792989, 30%nat); (148361554070916825814713013734, 30%nat); (156580102647475487158169896794, 30%nat);
      (160743286387845749007726726449, 30%nat); (160743286387845749007726726449, 30%nat); (156580102647475487158169896794, 30%nat);
      (148361554070916825814713013734, 30%nat); (136300482358724184489780792989, 30%nat); (120709227628674725099429705002, 30%nat);
      (101991499699450815683781205733, 30%nat); (806317639961196031447768461137, 31%nat); (571818021275668260047536271732, 31%nat);
      (322371231884889414916050281173, 31%nat); (526315789473684210526315789474, 32%nat)]
  | _ => []
  end%Z.

(** elements/elements.cpp:667-909, the values legendre_nodes_1D assigns to entries 0, 1, ... *)
Definition legendre_nodes_tab (num : Z) : list R :=
  match num with
  | 1 => decs [(0, 0%nat)]
  | 2 => decs [(-577350269189625764509148780501, 30%nat); (577350269189625764509148780501, 30%nat)]
  | 3 => decs [(-774596669241483377035853079956, 30%nat); (0, 0%nat); (774596669241483377035853079956, 30%nat)]
    | 4 => decs [(-861136311594052575223946488892, 30%nat); (-339981043584856264802665759103, 30%nat); (339981043584856264802665759103, 30%nat);
      (861136311594052575223946488892, 30%nat)]
    | 5 => decs [(-906179845938663992797626878299, 30%nat); (-5384693101056830910363144207, 28%nat); (0, 0%nat); (5384693101056830910363144207,
      28%nat); (906179845938663992797626878299, 30%nat)]
    | 6 => decs [(-932469514203152027812301554493, 30%nat); (-661209386466264513661399595019, 30%nat); (-23861918608319690863050172168, 29%nat);
      (23861918608319690863050172168, 29%nat); (661209386466264513661399595019, 30%nat); (932469514203152027812301554493, 30%nat)]
    | 7 => decs [(-949107912342758524526189684047, 30%nat); (-74153118559939443986386477328, 29%nat); (-405845151377397166906606412076, 30%nat); (0,
      0%nat); (405845151377397166906606412076, 30%nat); (74153118559939443986386477328, 29%nat); (949107912342758524526189684047, 30%nat)]
    | 8 => decs [(-960289856497536231683560868569, 30%nat); (-796666477413626739591553936475, 30%nat); (-525532409916328985817739049189, 30%nat);
      (-18343464249564980493947614236, 29%nat); (18343464249564980493947614236, 29%nat); (525532409916328985817739049189, 30%nat);
      (796666477413626739591553936475, 30%nat); (960289856497536231683560868569, 30%nat)]
    | 9 => decs [(-968160239507626089835576202903, 30%nat); (-836031107326635794299429788069, 30%nat); (-613371432700590397308702039341, 30%nat);
      (-324253423403808929038538014643, 30%nat); (0, 0%nat); (324253423403808929038538014643, 30%nat); (613371432700590397308702039341, 30%nat);
      (836031107326635794299429788069, 30%nat); (968160239507626089835576202903, 30%nat)]
    | 10 => decs [(-9739065285171717200779640120844, 31%nat); (-8650633666889845107320966884234, 31%nat); (-6794095682990244062343273651148, 31%nat);
      (-4333953941292471907992659431657, 31%nat); (-1488743389816312108848260011297, 31%nat); (1488743389816312108848260011297, 31%nat);
      (4333953941292471907992659431657, 31%nat); (6794095682990244062343273651148, 31%nat); (8650633666889845107320966884234, 31%nat);
      (9739065285171717200779640120844, 31%nat)]
    | 11 => decs [(-9782286581460569928039380011228, 31%nat); (-8870625997680952990751577693039, 31%nat); (-7301520055740493240934162520311, 31%nat);
      (-5190961292068118159257256694586, 31%nat); (-2695431559523449723315319854008, 31%nat); (0, 0%nat); (2695431559523449723315319854008, 31%nat);
      (5190961292068118159257256694586, 31%nat); (7301520055740493240934162520311, 31%nat); (8870625997680952990751577693039, 31%nat);
      (9782286581460569928039380011228, 31%nat)]
    | 12 => decs [(-9815606342467192506905490901492, 31%nat); (-904117256370474856678465866119, 30%nat); (-7699026741943046870368938332128, 31%nat);
      (-5873179542866174472967024189405, 31%nat); (-3678314989981801937526915366437, 31%nat); (-1252334085114689154724413694638, 31%nat);
      (1252334085114689154724413694638, 31%nat); (3678314989981801937526915366437, 31%nat); (5873179542866174472967024189405, 31%nat);
      (7699026741943046870368938332128, 31%nat); (904117256370474856678465866119, 30%nat); (9815606342467192506905490901492, 31%nat)]
    | 13 => decs [(-9841830547185881494728294488071, 31%nat); (-91759839922297796520654783650071, 32%nat); (-80157809073330991279420648958285,
      32%nat); (-64234933944034022064398460699551, 32%nat); (-44849275103644685287791285212763, 32%nat); (-23045831595513479406552812109798, 32%nat);
      (0, 0%nat); (23045831595513479406552812109798, 32%nat); (44849275103644685287791285212763, 32%nat); (64234933944034022064398460699551, 32%nat);
      (80157809073330991279420648958285, 32%nat); (91759839922297796520654783650071, 32%nat); (9841830547185881494728294488071, 31%nat)]
    | 14 => decs [(-986283808696812338841597266704052, 33%nat); (-928434883663573517336391139377874, 33%nat); (-827201315069764993189794742650394,
      33%nat); (-687292904811685470148019803019334, 33%nat); (-515248636358154091965290718551188, 33%nat); (-319112368927889760435671824168475,
      33%nat); (-108054948707343662066244650219834, 33%nat); (108054948707343662066244650219834, 33%nat); (319112368927889760435671824168475, 33%nat);
      (515248636358154091965290718551188, 33%nat); (687292904811685470148019803019334, 33%nat); (827201315069764993189794742650394, 33%nat);
      (928434883663573517336391139377874, 33%nat); (986283808696812338841597266704052, 33%nat)]
    | 15 => decs [(-987992518020485428489565718586612, 33%nat); (-937273392400705904307758947710209, 33%nat); (-848206583410427216200648320774216,
      33%nat); (-724417731360170047416186054613938, 33%nat); (-57097217260853884753722673725391, 32%nat); (-394151347077563369897207370981045,
      33%nat); (-201194093997434522300628303394596, 33%nat); (0, 0%nat); (201194093997434522300628303394596, 33%nat);
      (394151347077563369897207370981045, 33%nat); (57097217260853884753722673725391, 32%nat); (724417731360170047416186054613938, 33%nat);
      (848206583410427216200648320774216, 33%nat); (937273392400705904307758947710209, 33%nat); (987992518020485428489565718586612, 33%nat)]
    | 16 => decs [(-989400934991649932596154173450332, 33%nat); (-944575023073232576077988415534608, 33%nat); (-865631202387831743880467897712393,
      33%nat); (-755404408355003033895101194847442, 33%nat); (-617876244402643748446671764048791, 33%nat); (-458016777657227386342419442983577,
      33%nat); (-281603550779258913230460501460496, 33%nat); (-95012509837637440185319335424958, 33%nat); (95012509837637440185319335424958, 33%nat);
      (281603550779258913230460501460496, 33%nat); (458016777657227386342419442983577, 33%nat); (617876244402643748446671764048791, 33%nat);
      (755404408355003033895101194847442, 33%nat); (865631202387831743880467897712393, 33%nat); (944575023073232576077988415534608, 33%nat);
      (989400934991649932596154173450332, 33%nat)]
    | 17 => decs [(-990575475314417335675434019940665, 33%nat); (-950675521768767761222716957895803, 33%nat); (-880239153726985902122955694488155,
      33%nat); (-781514003896801406925230055520476, 33%nat); (-657671159216690765850302216643002, 33%nat); (-512690537086476967886246568629551,
      33%nat); (-351231763453876315297185517095346, 33%nat); (-178484181495847855850677493654065, 33%nat); (0, 0%nat);
      (178484181495847855850677493654065, 33%nat); (351231763453876315297185517095346, 33%nat); (512690537086476967886246568629551, 33%nat);
      (657671159216690765850302216643002, 33%nat); (781514003896801406925230055520476, 33%nat); (880239153726985902122955694488155, 33%nat);
      (950675521768767761222716957895803, 33%nat); (990575475314417335675434019940665, 33%nat)]
    | 18 => decs [(-99156516842093094673001600470615, 32%nat); (-955823949571397755181195892929776, 33%nat); (-892602466497555739206060591127145,
      33%nat); (-80370495897252311568241745501459, 32%nat); (-691687043060353207874891081288848, 33%nat); (-559770831073947534607871548525329,
      33%nat); (-411751161462842646035931793833051, 33%nat); (-251886225691505509588972854877911, 33%nat); (-84775013041735301242261852935783,
      33%nat); (84775013041735301242261852935783, 33%nat); (251886225691505509588972854877911, 33%nat); (411751161462842646035931793833051, 33%nat);
      (559770831073947534607871548525329, 33%nat); (691687043060353207874891081288848, 33%nat); (80370495897252311568241745501459, 32%nat);
      (892602466497555739206060591127145, 33%nat); (955823949571397755181195892929776, 33%nat); (99156516842093094673001600470615, 32%nat)]
    | 19 => decs [(-99240684384358440318901767025326, 32%nat); (-960208152134830030852778840687651, 33%nat); (-903155903614817901642660928532312,
      33%nat); (-822714656537142824978922486712713, 33%nat); (-720966177335229378617095860823781, 33%nat); (-600545304661681023469638164946239,
      33%nat); (-464570741375960945717267148104102, 33%nat); (-316564099963629831990117328849844, 33%nat); (-160358645640225375868096115740743,
      33%nat); (0, 0%nat); (160358645640225375868096115740743, 33%nat); (316564099963629831990117328849844, 33%nat);
      (464570741375960945717267148104102, 33%nat); (600545304661681023469638164946239, 33%nat); (720966177335229378617095860823781, 33%nat);
      (822714656537142824978922486712713, 33%nat); (903155903614817901642660928532312, 33%nat); (960208152134830030852778840687651, 33%nat);
      (99240684384358440318901767025326, 32%nat)]
  | _ => []
  end%Z.

(** elements/elements.cpp:914-1158, the values legendre_weights_1D assigns to entries 0, 1, ... *)
Definition legendre_weights_tab (num : Z) : list R :=
  match num with
  | 1 => decs [(2, 0%nat)]
  | 2 => decs [(1, 0%nat); (1, 0%nat)]
  | 3 => decs [(555555555555555555555555555555555, 33%nat); (888888888888888888888888888888888, 33%nat); (555555555555555555555555555555555, 33%nat)]
    | 4 => decs [(347854845137453857373063949221999, 33%nat); (652145154862546142626936050778, 30%nat); (652145154862546142626936050778, 30%nat);
      (347854845137453857373063949221999, 33%nat)]
    | 5 => decs [(236926885056189087514264040719917, 33%nat); (478628670499366468041291514835638, 33%nat); (568888888888888888888888888888888,
      33%nat); (478628670499366468041291514835638, 33%nat); (236926885056189087514264040719917, 33%nat)]
    | 6 => decs [(171324492379170345040296142172732, 33%nat); (360761573048138607569833513837716, 33%nat); (46791393457269104738987034398955, 32%nat);
      (46791393457269104738987034398955, 32%nat); (360761573048138607569833513837716, 33%nat); (171324492379170345040296142172732, 33%nat)]
    | 7 => decs [(129484966168869693270611432679082, 33%nat); (279705391489276667901467771423779, 33%nat); (381830050505118944950369775488975,
      33%nat); (417959183673469387755102040816326, 33%nat); (381830050505118944950369775488975, 33%nat); (279705391489276667901467771423779, 33%nat);
      (129484966168869693270611432679082, 33%nat)]
    | 8 => decs [(101228536290376259152531354309962, 33%nat); (22238103445337447054435599442624, 32%nat); (313706645877887287337962201986601, 33%nat);
      (362683783378361982965150449277195, 33%nat); (362683783378361982965150449277195, 33%nat); (313706645877887287337962201986601, 33%nat);
      (22238103445337447054435599442624, 32%nat); (101228536290376259152531354309962, 33%nat)]
    | 9 => decs [(81274388361574411971892158110523, 33%nat); (180648160694857404058472031242912, 33%nat); (260610696402935462318742869418632, 33%nat);
      (312347077040002840068630406584443, 33%nat); (330239355001259763164525069286974, 33%nat); (312347077040002840068630406584443, 33%nat);
      (260610696402935462318742869418632, 33%nat); (180648160694857404058472031242912, 33%nat); (81274388361574411971892158110523, 33%nat)]
    | 10 => decs [(66671344308688137593568809893331, 33%nat); (149451349150580593145776339657697, 33%nat); (219086362515982043995534934228163,
      33%nat); (269266719309996355091226921569469, 33%nat); (295524224714752870173892994651338, 33%nat); (295524224714752870173892994651338, 33%nat);
      (269266719309996355091226921569469, 33%nat); (219086362515982043995534934228163, 33%nat); (149451349150580593145776339657697, 33%nat);
      (66671344308688137593568809893331, 33%nat)]
    | 11 => decs [(55668567116173666482753720442548, 33%nat); (12558036946490462463469429922394, 32%nat); (186290210927734251426097641431655, 33%nat);
      (233193764591990479918523704843175, 33%nat); (262804544510246662180688869890509, 33%nat); (272925086777900630714483528336342, 33%nat);
      (262804544510246662180688869890509, 33%nat); (233193764591990479918523704843175, 33%nat); (186290210927734251426097641431655, 33%nat);
      (12558036946490462463469429922394, 32%nat); (55668567116173666482753720442548, 33%nat)]
    | 12 => decs [(4717533638651182719461596148501, 32%nat); (10693932599531843096025471819399, 32%nat); (16007832854334622633465252954335, 32%nat);
      (20316742672306592174906445580979, 32%nat); (23349253653835480876084989892487, 32%nat); (24914704581340278500056243604295, 32%nat);
      (24914704581340278500056243604295, 32%nat); (23349253653835480876084989892487, 32%nat); (20316742672306592174906445580979, 32%nat);
      (16007832854334622633465252954335, 32%nat); (10693932599531843096025471819399, 32%nat); (4717533638651182719461596148501, 32%nat)]
    | 13 => decs [(4048400476531587952002159220098, 32%nat); (9212149983772844791442177595379, 32%nat); (13887351021978723846360177686887, 32%nat);
      (17814598076194573828004669199609, 32%nat); (20781604753688850231252321930605, 32%nat); (22628318026289723841209018603977, 32%nat);
      (23255155323087391019458951526883, 32%nat); (22628318026289723841209018603977, 32%nat); (20781604753688850231252321930605, 32%nat);
      (17814598076194573828004669199609, 32%nat); (13887351021978723846360177686887, 32%nat); (9212149983772844791442177595379, 32%nat);
      (4048400476531587952002159220098, 32%nat)]
    | 14 => decs [(3511946033175186303183287613819, 32%nat); (8015808715976020980563327706285, 32%nat); (12151857068790318468941480907247, 32%nat);
      (15720316715819353456960193862384, 32%nat); (18553839747793781374171659012515, 32%nat); (20519846372129560396592406566121, 32%nat);
      (21526385346315779019587644331626, 32%nat); (21526385346315779019587644331626, 32%nat); (20519846372129560396592406566121, 32%nat);
      (18553839747793781374171659012515, 32%nat); (15720316715819353456960193862384, 32%nat); (12151857068790318468941480907247, 32%nat);
      (8015808715976020980563327706285, 32%nat); (3511946033175186303183287613819, 32%nat)]
    | 15 => decs [(307532419961172683546283935772, 31%nat); (7036604748810812470926741645066, 32%nat); (10715922046717193501186954668586, 32%nat);
      (13957067792615431444780479451102, 32%nat); (1662692058169939335532008604812, 31%nat); (18616100001556221102680056186642, 32%nat);
      (19843148532711157645611832644383, 32%nat); (20257824192556127288062019996751, 32%nat); (19843148532711157645611832644383, 32%nat);
      (18616100001556221102680056186642, 32%nat); (1662692058169939335532008604812, 31%nat); (13957067792615431444780479451102, 32%nat);
      (10715922046717193501186954668586, 32%nat); (7036604748810812470926741645066, 32%nat); (307532419961172683546283935772, 31%nat)]
    | 16 => decs [(2715245941175409485178057245601, 32%nat); (6225352393864789286284383699437, 32%nat); (9515851168249278480992510760224, 32%nat);
      (12462897125553387205247628219201, 32%nat); (14959598881657673208150173054747, 32%nat); (16915651939500253818931207903035, 32%nat);
      (18260341504492358886676366796921, 32%nat); (18945061045506849628539672320828, 32%nat); (18945061045506849628539672320828, 32%nat);
      (18260341504492358886676366796921, 32%nat); (16915651939500253818931207903035, 32%nat); (14959598881657673208150173054747, 32%nat);
      (12462897125553387205247628219201, 32%nat); (9515851168249278480992510760224, 32%nat); (6225352393864789286284383699437, 32%nat);
      (2715245941175409485178057245601, 32%nat)]
    | 17 => decs [(2414830286854793196011002628756, 32%nat); (5545952937398720112944016535824, 32%nat); (8503614831717918088353537019106, 32%nat);
      (11188384719340397109478838562635, 32%nat); (13513636846852547328631998170235, 32%nat); (15404576107681028808143159480195, 32%nat);
      (16800410215645004450997066378832, 32%nat); (17656270536699264632527099011319, 32%nat); (17944647035620652545826564426188, 32%nat);
      (17656270536699264632527099011319, 32%nat); (16800410215645004450997066378832, 32%nat); (15404576107681028808143159480195, 32%nat);
      (13513636846852547328631998170235, 32%nat); (11188384719340397109478838562635, 32%nat); (8503614831717918088353537019106, 32%nat);
      (5545952937398720112944016535824, 32%nat); (2414830286854793196011002628756, 32%nat)]
    | 18 => decs [(2161601352648331031334271026645, 32%nat); (4971454889496979645333494620263, 32%nat); (7642573025488905652912967761663, 32%nat);
      (10094204410628716556281398492483, 32%nat); (1225552067114784601845191268002, 31%nat); (14064291467065065120473130375194, 32%nat);
      (15468467512626524492541800383637, 32%nat); (16427648374583272298605377646592, 32%nat); (16914238296314359184065647013498, 32%nat);
      (16914238296314359184065647013498, 32%nat); (16427648374583272298605377646592, 32%nat); (15468467512626524492541800383637, 32%nat);
      (14064291467065065120473130375194, 32%nat); (1225552067114784601845191268002, 31%nat); (10094204410628716556281398492483, 32%nat);
      (7642573025488905652912967761663, 32%nat); (4971454889496979645333494620263, 32%nat); (2161601352648331031334271026645, 32%nat)]
    | 19 => decs [(1946178822972647703631204146443, 32%nat); (4481422676569960033283815740199, 32%nat); (6904454273764122658070825800601, 32%nat);
      (9149002162244999946446209412383, 32%nat); (11156664554733399471602390168176, 32%nat); (12875396253933622767551578485687, 32%nat);
      (1426067021736066117757461094419, 31%nat); (15276604206585966677885540089766, 32%nat); (15896884339395434764995643946504, 32%nat);
      (16105444984878369597916362532091, 32%nat); (15896884339395434764995643946504, 32%nat); (15276604206585966677885540089766, 32%nat);
      (1426067021736066117757461094419, 31%nat); (12875396253933622767551578485687, 32%nat); (11156664554733399471602390168176, 32%nat);
      (9149002162244999946446209412383, 32%nat); (6904454273764122658070825800601, 32%nat); (4481422676569960033283815740199, 32%nat);
      (1946178822972647703631204146443, 32%nat)]
  | _ => []
  end%Z.

(** swage/swage.cpp:63-327, the values lobatto_nodes_1D_tmp assigns to entries 0, 1, ... *)
Definition swage_lobatto_nodes_tab (num : Z) : list R :=
  match num with
  | 1 => decs [(0, 0%nat)]
  | 2 => decs [(-1, 0%nat); (1, 0%nat)]
  | 3 => decs [(-1, 0%nat); (0, 0%nat); (1, 0%nat)]
  | 4 => [(- 1)%R; (- 1/5*sqrt(5))%R; (1/5*sqrt(5))%R; (1)%R]
  | 5 => [(- 1)%R; (- 1/7*sqrt(21))%R; (0)%R; (1/7*sqrt(21))%R; (1)%R]
    | 6 => [(- 1)%R; (- sqrt(1/21*(7 + 2*sqrt(7))))%R; (- sqrt(1/21*(7 - 2*sqrt(7))))%R; (sqrt(1/21*(7 - 2*sqrt(7))))%R; (sqrt(1/21*(7
      +2*sqrt(7))))%R; (1)%R]
    | 7 => decs [(-1, 0%nat); (-830223896278566929872032213967, 30%nat); (-468848793470714213803771881909, 30%nat); (0, 0%nat);
      (468848793470714213803771881909, 30%nat); (830223896278566929872032213967, 30%nat); (1, 0%nat)]
    | 8 => decs [(-1, 0%nat); (-871740148509606615337445761221, 30%nat); (-591700181433142302144510731398, 30%nat); (-209299217902478868768657260345,
      30%nat); (209299217902478868768657260345, 30%nat); (591700181433142302144510731398, 30%nat); (871740148509606615337445761221, 30%nat); (1,
      0%nat)]
    | 9 => decs [(-1, 0%nat); (-899757995411460157312345244418, 30%nat); (-677186279510737753445885427091, 30%nat); (-363117463826178158710752068709,
      30%nat); (0, 0%nat); (363117463826178158710752068709, 30%nat); (677186279510737753445885427091, 30%nat); (899757995411460157312345244418,
      30%nat); (1, 0%nat)]
    | 10 => decs [(-1, 0%nat); (-919533908166458813828932660822, 30%nat); (-73877386510550507500310617486, 29%nat); (-477924949810444495661175092731,
      30%nat); (-165278957666387024626219765958, 30%nat); (165278957666387024626219765958, 30%nat); (477924949810444495661175092731, 30%nat);
      (73877386510550507500310617486, 29%nat); (919533908166458813828932660822, 30%nat); (1, 0%nat)]
    | 11 => decs [(-1, 0%nat); (-934001430408059134332274136099, 30%nat); (-784483473663144418622417816108, 30%nat); (-565235326996205006470963969478,
      30%nat); (-295758135586939391431911515559, 30%nat); (0, 0%nat); (295758135586939391431911515559, 30%nat); (565235326996205006470963969478,
      30%nat); (784483473663144418622417816108, 30%nat); (934001430408059134332274136099, 30%nat); (1, 0%nat)]
    | 12 => decs [(-1, 0%nat); (-944899272222882223407580138303, 30%nat); (-819279321644006678348641581717, 30%nat); (-632876153031869677662404854444,
      30%nat); (-399530940965348932264349791567, 30%nat); (-13655293285492755486406185574, 29%nat); (13655293285492755486406185574, 29%nat);
      (399530940965348932264349791567, 30%nat); (632876153031869677662404854444, 30%nat); (819279321644006678348641581717, 30%nat);
      (944899272222882223407580138303, 30%nat); (1, 0%nat)]
    | 13 => decs [(-1, 0%nat); (-953309846642163911896905464755, 30%nat); (-846347564651872316865925607099, 30%nat); (-686188469081757426072759039566,
      30%nat); (-482909821091336201746937233637, 30%nat); (-249286930106239992568673700374, 30%nat); (0, 0%nat); (249286930106239992568673700374,
      30%nat); (482909821091336201746937233637, 30%nat); (686188469081757426072759039566, 30%nat); (846347564651872316865925607099, 30%nat);
      (953309846642163911896905464755, 30%nat); (1, 0%nat)]
    | 14 => decs [(-1, 0%nat); (-959935045267260901355100162015, 30%nat); (-867801053830347251000220202908, 30%nat); (-728868599091326140584672400521,
      30%nat); (-550639402928647055316622705859, 30%nat); (-342724013342712845043903403642, 30%nat); (-116331868883703867658776709736, 30%nat);
      (116331868883703867658776709736, 30%nat); (342724013342712845043903403642, 30%nat); (550639402928647055316622705859, 30%nat);
      (728868599091326140584672400521, 30%nat); (867801053830347251000220202908, 30%nat); (959935045267260901355100162015, 30%nat); (1, 0%nat)]
    | 15 => decs [(-1, 0%nat); (-96524592650383857279585139207, 29%nat); (-885082044222976298825401631482, 30%nat); (-763519689951815200704118475976,
      30%nat); (-606253205469845711123529938637, 30%nat); (-420638054713672480921896938739, 30%nat); (-215353955363794238225679446273, 30%nat); (0,
      0%nat); (215353955363794238225679446273, 30%nat); (420638054713672480921896938739, 30%nat); (606253205469845711123529938637, 30%nat);
      (763519689951815200704118475976, 30%nat); (885082044222976298825401631482, 30%nat); (96524592650383857279585139207, 29%nat); (1, 0%nat)]
    | 16 => decs [(-1, 0%nat); (-969568046270217932952242738367, 30%nat); (-89920053309347209299462826152, 29%nat); (-792008291861815063931088270963,
      30%nat); (-652388702882493089467883219641, 30%nat); (-486059421887137611781890785847, 30%nat); (-299830468900763208098353454722, 30%nat);
      (-101326273521949447843033005046, 30%nat); (101326273521949447843033005046, 30%nat); (299830468900763208098353454722, 30%nat);
      (486059421887137611781890785847, 30%nat); (652388702882493089467883219641, 30%nat); (792008291861815063931088270963, 30%nat);
      (89920053309347209299462826152, 29%nat); (969568046270217932952242738367, 30%nat); (1, 0%nat)]
    | 17 => decs [(-1, 0%nat); (-973132176631418314156979501874, 30%nat); (-910879995915573595623802506398, 30%nat); (-815696251221770307106750553238,
      30%nat); (-691028980627684705394919357372, 30%nat); (-541385399330101539123733407504, 30%nat); (-372174433565477041907234680735, 30%nat);
      (-189511973518317388304263014753, 30%nat); (0, 0%nat); (189511973518317388304263014753, 30%nat); (372174433565477041907234680735, 30%nat);
      (541385399330101539123733407504, 30%nat); (691028980627684705394919357372, 30%nat); (815696251221770307106750553238, 30%nat);
      (910879995915573595623802506398, 30%nat); (973132176631418314156979501874, 30%nat); (1, 0%nat)]
    | 18 => decs [(-1, 0%nat); (-976105557412198542864518924342, 30%nat); (-920649185347533873837854625431, 30%nat); (-835593535218090213713646362328,
      30%nat); (-723679329283242681306210365302, 30%nat); (-588504834318661761173535893194, 30%nat); (-434415036912123975342287136741, 30%nat);
      (-266362652878280984167665332026, 30%nat); (-897490934846521110226450100886, 31%nat); (897490934846521110226450100886, 31%nat);
      (266362652878280984167665332026, 30%nat); (434415036912123975342287136741, 30%nat); (588504834318661761173535893194, 30%nat);
      (723679329283242681306210365302, 30%nat); (835593535218090213713646362328, 30%nat); (920649185347533873837854625431, 30%nat);
      (976105557412198542864518924342, 30%nat); (1, 0%nat)]
    | 19 => decs [(-1, 0%nat); (-97861176622208009515263406311, 29%nat); (-928901528152586243717940258797, 30%nat); (-852460577796646093085955970041,
      30%nat); (-751494202552613014163637489634, 30%nat); (-628908137265220497766832306229, 30%nat); (-488229285680713502777909637625, 30%nat);
      (-333504847824498610298500103845, 30%nat); (-169186023409281571375154153445, 30%nat); (0, 0%nat); (169186023409281571375154153445, 30%nat);
      (333504847824498610298500103845, 30%nat); (488229285680713502777909637625, 30%nat); (628908137265220497766832306229, 30%nat);
      (751494202552613014163637489634, 30%nat); (852460577796646093085955970041, 30%nat); (928901528152586243717940258797, 30%nat);
      (97861176622208009515263406311, 29%nat); (1, 0%nat)]
    | 20 => decs [(-1, 0%nat); (-980743704893914171925446438584, 30%nat); (-935934498812665435716181584931, 30%nat); (-866877978089950141309847214616,
      30%nat); (-775368260952055870414317527595, 30%nat); (-663776402290311289846403322971, 30%nat); (-534992864031886261648135961829, 30%nat);
      (-392353183713909299386474703816, 30%nat); (-239551705922986495182401356927, 30%nat); (-805459372388218379759445181596, 31%nat);
      (805459372388218379759445181596, 31%nat); (239551705922986495182401356927, 30%nat); (392353183713909299386474703816, 30%nat);
      (534992864031886261648135961829, 30%nat); (663776402290311289846403322971, 30%nat); (775368260952055870414317527595, 30%nat);
      (866877978089950141309847214616, 30%nat); (935934498812665435716181584931, 30%nat); (980743704893914171925446438584, 30%nat); (1, 0%nat)]
  | _ => []
  end%Z.

(** elements/elements.cpp:126-392 lobatto_nodes_1D: the if/else-if chain on num; no branch is taken
    for other values of num *)
Definition lobatto_nodes_1D (a : list (option R)) (num : Z) : res (list (option R)) := stores a 0 (lobatto_nodes_tab num).
(** elements/elements.cpp:400-664 lobatto_weights_1D *)
Definition lobatto_weights_1D (a : list (option R)) (num : Z) : res (list (option R)) := stores a 0 (lobatto_weights_tab num).
(** elements/elements.cpp:667-909 legendre_nodes_1D *)
Definition legendre_nodes_1D (a : list (option R)) (num : Z) : res (list (option R)) := stores a 0 (legendre_nodes_tab num).
(** elements/elements.cpp:914-1158 legendre_weights_1D *)
Definition legendre_weights_1D (a : list (option R)) (num : Z) : res (list (option R)) := stores a 0 (legendre_weights_tab num).
(** swage/swage.cpp:63-327 lobatto_nodes_1D_tmp *)
Definition lobatto_nodes_1D_tmp (a : list (option R)) (num : Z) : res (list (option R)) := stores a 0 (swage_lobatto_nodes_tab num).

(** elements/elements.cpp:1174-1179 = 1216-1221, the two partition coefficients; both are computed
    before p_order is looked at *)
Definition alphas (wts nodes : list (option R)) : res (R * R) :=
  do x1 <- getu nodes 1; do x0 <- getu nodes 0; do w0 <- getu wts 0; do w1 <- getu wts 1;
  do alpha1 <- rdiv (x1 - x0 - w0)%R w1;
  do x2 <- getu nodes 2; do w2 <- getu wts 2;
  do alpha2 <- rdiv (x2 - x0 - (w0 + w1))%R w2;
  Ok (alpha1, alpha2).

(** a(i) = a(j) *)
Definition copy_entry (a : list (option R)) (i j : nat) : res (list (option R)) := do v <- getu a j; set a i (Some v).

(** elements/elements.cpp:1168-1204 length_weights *)
Definition length_weights (len wts nodes : list (option R)) (p_order : Z) : res (list (option R)) :=
  do (alpha1, alpha2) <- alphas wts nodes;
  do a <- (if (p_order =? 1)%Z then do a <- set len 0 (Some 1%R); set a 1 (Some 1%R) else Ok len);
  do b <- (if (p_order =? 2)%Z then
             do w0 <- getu wts 0; do w1 <- getu wts 1; do w2 <- getu wts 2;
             do a <- set a 0 (Some (w0 + alpha1 * w1)%R);
             do a <- set a 1 (Some ((1 - alpha1) * w1 + 1/2 * w2)%R);
             do a <- copy_entry a 2 1; copy_entry a 3 0
           else Ok a);
  if (p_order =? 3)%Z then
    do w0 <- getu wts 0; do w1 <- getu wts 1; do w2 <- getu wts 2; do w3 <- getu wts 3;
    do a <- set b 0 (Some (w0 + alpha1 * w1)%R);
    do a <- set a 1 (Some ((1 - alpha1) * w1 + alpha2 * w2)%R);
    do a <- set a 2 (Some ((1 - alpha2) * w2 + 1/2 * w3)%R);
    do a <- copy_entry a 3 2; do a <- copy_entry a 4 1; copy_entry a 5 0
  else Ok b.

(** elements/elements.cpp:1210-1261 sub_weights *)
Definition sub_weights (sub wts nodes : list (option R)) (p_order : Z) : res (list (option R)) :=
  do (alpha1, alpha2) <- alphas wts nodes;
  do a <- (if (p_order =? 0)%Z then
             do w0 <- getu wts 0; do a <- set sub 0 (Some w0); do w1 <- getu wts 1; set a 1 (Some w1)
           else Ok sub);
  do b <- (if (p_order =? 1)%Z then
             do w0 <- getu wts 0; do a <- set a 0 (Some w0);
             do w1 <- getu wts 1; do a <- set a 1 (Some (1/2 * w1)%R);
             do a <- copy_entry a 2 1; copy_entry a 3 0
           else Ok a);
  do c <- (if (p_order =? 2)%Z then
             do w0 <- getu wts 0; do w1 <- getu wts 1; do w2 <- getu wts 2;
             do a <- set b 0 (Some w0);
             do a <- set a 1 (Some (alpha1 * w1)%R);
             do a <- set a 2 (Some ((1 - alpha1) * w1)%R);
             do a <- set a 3 (Some (1/2 * w2)%R);
             do a <- copy_entry a 4 3; do a <- copy_entry a 5 2; do a <- copy_entry a 6 1; copy_entry a 7 0
           else Ok b);
  if (p_order =? 3)%Z then
    do w0 <- getu wts 0; do w1 <- getu wts 1; do w2 <- getu wts 2; do w3 <- getu wts 3;
    do a <- set c 0 (Some w0);
    do a <- set a 1 (Some (alpha1 * w1)%R);
    do a <- set a 2 (Some ((1 - alpha1) * w1)%R);
    do a <- set a 3 (Some (alpha2 * w2)%R);
    do a <- set a 4 (Some ((1 - alpha2) * w2)%R);
    do a <- set a 5 (Some (1/2 * w3)%R);
    do a <- copy_entry a 6 5; do a <- copy_entry a 7 4; do a <- copy_entry a 8 3;
    do a <- copy_entry a 9 2; do a <- copy_entry a 10 1; copy_entry a 11 0
  else Ok c.

(** elements/elements.cpp:1330-1352 set_nodes_wgts; returns (nodes, weights, len, sub) *)
Definition set_nodes_wgts (nodes wts len sub : list (option R)) (p_order : Z) :
  res (list (option R) * list (option R) * list (option R) * list (option R)) :=
  let num_g_pts_1d := (2 * p_order + 1)%Z in
  do wts' <- lobatto_weights_1D wts num_g_pts_1d;
  do nodes' <- lobatto_nodes_1D nodes num_g_pts_1d;
  do len' <- length_weights len wts' nodes' p_order;
  do sub' <- sub_weights sub wts' nodes' p_order;
  Ok (nodes', wts', len', sub').

(** indexing of a local C array by an int *)
Definition getz (l : list R) (m : Z) : res R := if (m <? 0)%Z then Err OOB else get l (Z.to_nat m).

(** elements/elements.cpp:1417-1497, the local arrays of line_gauss_info that branch p reads (p = 1
    has none); entries such as w3[2] = w3[0] are written out *)
Definition gauss_pts (p : Z) : list R :=
  match p with
  | 2 => let g0 := (-1 / sqrt 3)%R in [g0; (-1 * g0)%R]
  | 3 => let g0 := (- sqrt (3/5))%R in [g0; 0%R; (-1 * g0)%R]
  | 4 => let g0 := (- sqrt ((3 + 2 * sqrt (6/5)) / 7))%R in
         let g1 := (- sqrt ((3 - 2 * sqrt (6/5)) / 7))%R in [g0; g1; (- g1)%R; (- g0)%R]
  | 5 => let g0 := (- sqrt (5 + 2 * sqrt (10/7)) / 3)%R in
         let g1 := (- sqrt (5 - 2 * sqrt (10/7)) / 3)%R in [g0; g1; 0%R; (- g1)%R; (- g0)%R]
  | 6 => decs [(-9324695142031521, 16%nat); (-6612093864662645, 16%nat); (-2386191860831969, 16%nat);
               (2386191860831969, 16%nat); (6612093864662645, 16%nat); (9324695142031521, 16%nat)]
  | 7 => decs [(-9491079123427585, 16%nat); (-7415311855993945, 16%nat); (-4058451513773972, 16%nat); (0, 0%nat);
               (4058451513773972, 16%nat); (7415311855993945, 16%nat); (9491079123427585, 16%nat)]
  | 8 => decs [(-9602898564975363, 16%nat); (-7966664774136267, 16%nat); (-5255324099163290, 16%nat); (-1834346424956498, 16%nat);
               (1834346424956498, 16%nat); (5255324099163290, 16%nat); (7966664774136267, 16%nat); (9602898564975363, 16%nat)]
  | _ => []
  end%Z.
Definition gauss_wts (p : Z) : list R :=
  match p with
  | 2 => decs [(1, 0%nat); (1, 0%nat)]
  | 3 => let w0 := (5/9)%R in [w0; (8/9)%R; w0]
  | 4 => let w0 := (1/2 - sqrt (5/6) / 6)%R in let w1 := (1/2 + sqrt (5/6) / 6)%R in [w0; w1; w1; w0]
  | 5 => let w0 := ((322 - 13 * sqrt 70) / 900)%R in let w1 := ((322 + 13 * sqrt 70) / 900)%R in [w0; w1; (512/900)%R; w1; w0]
  | 6 => decs [(1713244923791704, 16%nat); (3607615730481386, 16%nat); (4679139345726910, 16%nat);
               (4679139345726910, 16%nat); (3607615730481386, 16%nat); (1713244923791704, 16%nat)]
  | 7 => decs [(1294849661688697, 16%nat); (2797053914892766, 16%nat); (3818300505051189, 16%nat); (4179591836734694, 16%nat);
               (3818300505051189, 16%nat); (2797053914892766, 16%nat); (1294849661688697, 16%nat)]
  | 8 => decs [(1012285362903763, 16%nat); (2223810344533745, 16%nat); (3137066458778873, 16%nat); (3626837833783620, 16%nat);
               (3626837833783620, 16%nat); (3137066458778873, 16%nat); (2223810344533745, 16%nat); (1012285362903763, 16%nat)]
  | _ => []
  end%Z.

(** elements/elements.cpp:1519-1604, the local arrays of line_lobatto_info *)
Definition lobatto_pts (p : Z) : list R :=
  match p with
  | 2 => decs [(-1, 0%nat); (1, 0%nat)]
  | 3 => decs [(1, 0%nat); (0, 0%nat); (-1, 0%nat)]
  | 4 => decs [(-1, 0%nat); (-447213595499957939282, 21%nat); (447213595499957939282, 21%nat); (1, 0%nat)]
  | 5 => decs [(-1, 0%nat); (-6546536707079771437983, 22%nat); (0, 0%nat); (6546536707079771437983, 22%nat); (1, 0%nat)]
  | 6 => decs [(-1, 0%nat); (-765055323929464692851, 21%nat); (-2852315164806450963142, 22%nat);
               (2852315164806450963142, 22%nat); (765055323929464692851, 21%nat); (1, 0%nat)]
  | 7 => decs [(-1, 0%nat); (-830223896278566929872, 21%nat); (-4688487934707142138038, 22%nat); (0, 0%nat);
               (4688487934707142138038, 22%nat); (830223896278566929872, 21%nat); (1, 0%nat)]
  | 8 => decs [(-1, 0%nat); (-8717401485096066153375, 22%nat); (-5917001814331423021445, 22%nat); (-2092992179024788687687, 22%nat);
               (2092992179024788687687, 22%nat); (5917001814331423021445, 22%nat); (8717401485096066153375, 22%nat); (1, 0%nat)]
  | _ => []
  end%Z.
Definition lobatto_wts (p : Z) : list R :=
  match p with
  | 2 => decs [(1, 0%nat); (1, 0%nat)]
  | 3 => let w0 := (1/3)%R in [w0; (4/3)%R; w0]
  | 4 => decs [(1666666666666666666667, 22%nat); (8333333333333333333333, 22%nat); (8333333333333333333333, 22%nat); (1666666666666666666667, 22%nat)]
  | 5 => decs [(1, 1%nat); (544444444444444444444, 21%nat); (7111111111111111111111, 22%nat); (544444444444444444444, 21%nat); (1, 1%nat)]
  | 6 => decs [(6666666666666666666667, 23%nat); (3784749562978469803166, 22%nat); (5548583770354863530167, 22%nat);
               (5548583770354863530167, 22%nat); (3784749562978469803166, 22%nat); (6666666666666666666667, 23%nat)]
  | 7 => decs [(4761904761904761904762, 23%nat); (276826047361565948011, 21%nat); (4317453812098626234179, 22%nat); (487619047619047619048, 21%nat);
               (4317453812098626234179, 22%nat); (276826047361565948011, 21%nat); (4761904761904761904762, 23%nat)]
  | 8 => decs [(3571428571428571428571, 23%nat); (210704227143506039383, 21%nat); (3411226924835043647642, 22%nat); (4124587946587038815671, 22%nat);
               (4124587946587038815671, 22%nat); (3411226924835043647642, 22%nat); (210704227143506039383, 21%nat); (3571428571428571428571, 23%nat)]
  | _ => []
  end%Z.

(** elements/elements.cpp:1409-1509 line_gauss_info and 1512-1616 line_lobatto_info with the point and
    weight arrays [pt], [wt]: m is decremented first, for p outside 1..8 x and w keep their values;
    returns (x, w, m) *)
Definition line_info (pt wt : Z -> list R) (x w : option R) (m p : Z) : res (option R * option R * Z) :=
  let m := (m - 1)%Z in
  if (p =? 1)%Z then Ok (Some 0%R, Some 2%R, m)
  else if ((2 <=? p) && (p <=? 8))%Z%bool then
    do x' <- getz (pt p) m; do w' <- getz (wt p) m; Ok (Some x', Some w', m)
  else Ok (x, w, m).
Definition line_gauss_info := line_info gauss_pts gauss_wts.
Definition line_lobatto_info := line_info lobatto_pts lobatto_wts.

(** read of a local variable *)
Definition var (x : option R) : res R := match x with Some v => Ok v | None => Err Uninit end.

(** elements/elements.cpp:1647-1650 and the same three statements for every direction of every rule:
    line_info(x, w, i, quad_order); pts(m, d) = x; weights(m, d) *= w.  ViewCArray(m, d) of [nd]
    columns is the entry m * nd + d *)
Definition direction (line : option R -> option R -> Z -> Z -> res (option R * option R * Z))
    (nd m d : nat) (i quad_order : Z) (st : option R * option R * list (option R) * list (option R)) :=
  let '(x, w, pts, wts) := st in
  do (x, w, _) <- line x w i quad_order;
  do xv <- var x;
  do pts <- set pts (m * nd + d) (Some xv);
  do wv <- var w; do old <- getu wts (m * nd + d);
  do wts <- set wts (m * nd + d) (Some (old * wv)%R);
  Ok (x, w, pts, wts).

(** elements/elements.cpp:1619-1657 gauss_2d; floor(m/quad_order) is the C++ integer quotient *)
Definition gauss_2d (pts wts tot : list (option R)) (quad_order : Z) :
  res (list (option R) * list (option R) * list (option R)) :=
  loop (Z.to_nat (quad_order * quad_order)) (fun m '(pts, wts, tot) =>
    let mz := Z.of_nat m in
    let j := (Z.quot mz quad_order + 1)%Z in
    let i := (mz + 1 - quad_order * (j - 1))%Z in
    do wts <- set wts (m * 2 + 0) (Some 1%R);
    do wts <- set wts (m * 2 + 1) (Some 1%R);
    do tot <- set tot m (Some 1%R);
    do (x, w, pts, wts) <- direction line_gauss_info 2 m 0 i quad_order (None, None, pts, wts);
    do (x, w, pts, wts) <- direction line_gauss_info 2 m 1 j quad_order (x, w, pts, wts);
    do w0 <- getu wts (m * 2 + 0); do w1 <- getu wts (m * 2 + 1);
    do tot <- set tot m (Some (w0 * w1)%R);
    Ok (pts, wts, tot)) (pts, wts, tot).

(** elements/elements.cpp:1660-1710 gauss_3d *)
Definition gauss_3d (pts wts tot : list (option R)) (quad_order : Z) :
  res (list (option R) * list (option R) * list (option R)) :=
  loop (Z.to_nat (quad_order * quad_order * quad_order)) (fun m '(pts, wts, tot) =>
    let mz := Z.of_nat m in
    let p12 := (quad_order * quad_order)%Z in
    let k := (Z.quot mz p12 + 1)%Z in
    let jj := (mz + 1 - p12 * (k - 1))%Z in
    let j := (Z.quot (jj - 1) quad_order + 1)%Z in
    let i := (jj - quad_order * (j - 1))%Z in
    do wts <- set wts (m * 3 + 0) (Some 1%R);
    do wts <- set wts (m * 3 + 1) (Some 1%R);
    do wts <- set wts (m * 3 + 2) (Some 1%R);
    do tot <- set tot m (Some 1%R);
    do (x, w, pts, wts) <- direction line_gauss_info 3 m 0 i quad_order (None, None, pts, wts);
    do (x, w, pts, wts) <- direction line_gauss_info 3 m 1 j quad_order (x, w, pts, wts);
    do (x, w, pts, wts) <- direction line_gauss_info 3 m 2 k quad_order (x, w, pts, wts);
    do w0 <- getu wts (m * 3 + 0); do w1 <- getu wts (m * 3 + 1); do w2 <- getu wts (m * 3 + 2);
    do tot <- set tot m (Some (w0 * w1 * w2)%R);
    Ok (pts, wts, tot)) (pts, wts, tot).

(** elements/elements.cpp:1725-1744 = 1886-1899, the indices (i, j, k, l) of the 4D rules.
    a = pow(quad_order, dim - 1) and b = pow(quad_order, dim - 2) are integers for dim >= 2, and the
    floor of the quotient by a positive number is the integer quotient (exact in doubles below 2^53);
    dim < 2 is not modelled (DivZero) *)
Definition index_4d (mz quad_order dim : Z) : res (Z * Z * Z * Z) :=
  if (dim <? 2)%Z then Err DivZero else
  let a := (quad_order ^ (dim - 1))%Z in
  let b := (quad_order ^ (dim - 2))%Z in
  let l := (mz / a + 1)%Z in
  let kk := (mz + 1 - a * (l - 1))%Z in
  let k := ((kk - 1) / b + 1)%Z in
  let jj := (mz + 1 - b * (k - 1) - a * (l - 1))%Z in
  let j := (Z.quot (jj - 1) quad_order + 1)%Z in
  let i := (jj - quad_order * (j - 1))%Z in
  Ok (i, j, k, l).

(** elements/elements.cpp:1713-1771 gauss_4d; line 1749 assigns these_weights(m, 4), column 4 of a
    4-column array, that is the first entry of the next row *)
Definition gauss_4d (pts wts : list (option R)) (quad_order dim : Z) : res (list (option R) * list (option R)) :=
  loop (Z.to_nat (quad_order * quad_order * quad_order * quad_order)) (fun m '(pts, wts) =>
    do (i, j, k, l) <- index_4d (Z.of_nat m) quad_order dim;
    do wts <- set wts (m * 4 + 0) (Some 1%R);
    do wts <- set wts (m * 4 + 1) (Some 1%R);
    do wts <- set wts (m * 4 + 2) (Some 1%R);
    do wts <- set wts (m * 4 + 4) (Some 1%R);
    do (x, w, pts, wts) <- direction line_gauss_info 4 m 0 i quad_order (None, None, pts, wts);
    do (x, w, pts, wts) <- direction line_gauss_info 4 m 1 j quad_order (x, w, pts, wts);
    do (x, w, pts, wts) <- direction line_gauss_info 4 m 2 k quad_order (x, w, pts, wts);
    do (x, w, pts, wts) <- direction line_gauss_info 4 m 3 l quad_order (x, w, pts, wts);
    Ok (pts, wts)) (pts, wts).

(** elements/elements.cpp:1774-1808 lobatto_2d *)
Definition lobatto_2d (pts wts : list (option R)) (quad_order : Z) : res (list (option R) * list (option R)) :=
  loop (Z.to_nat (quad_order * quad_order)) (fun m '(pts, wts) =>
    let mz := Z.of_nat m in
    let j := (Z.quot mz quad_order + 1)%Z in
    let i := (mz + 1 - quad_order * (j - 1))%Z in
    do wts <- set wts (m * 2 + 0) (Some 1%R);
    do wts <- set wts (m * 2 + 1) (Some 1%R);
    do (x, w, pts, wts) <- direction line_lobatto_info 2 m 0 i quad_order (None, None, pts, wts);
    do (x, w, pts, wts) <- direction line_lobatto_info 2 m 1 j quad_order (x, w, pts, wts);
    Ok (pts, wts)) (pts, wts).

(** elements/elements.cpp:1811-1856 lobatto_3d *)
Definition lobatto_3d (pts wts : list (option R)) (quad_order : Z) : res (list (option R) * list (option R)) :=
  loop (Z.to_nat (quad_order * quad_order * quad_order)) (fun m '(pts, wts) =>
    let mz := Z.of_nat m in
    let p12 := (quad_order * quad_order)%Z in
    let k := (Z.quot mz p12 + 1)%Z in
    let jj := (mz + 1 - p12 * (k - 1))%Z in
    let j := (Z.quot (jj - 1) quad_order + 1)%Z in
    let i := (jj - quad_order * (j - 1))%Z in
    do wts <- set wts (m * 3 + 0) (Some 1%R);
    do wts <- set wts (m * 3 + 1) (Some 1%R);
    do wts <- set wts (m * 3 + 2) (Some 1%R);
    do (x, w, pts, wts) <- direction line_lobatto_info 3 m 0 i quad_order (None, None, pts, wts);
    do (x, w, pts, wts) <- direction line_lobatto_info 3 m 1 j quad_order (x, w, pts, wts);
    do (x, w, pts, wts) <- direction line_lobatto_info 3 m 2 k quad_order (x, w, pts, wts);
    Ok (pts, wts)) (pts, wts).

(** elements/elements.cpp:1859-1918 lobatto_4d *)
Definition lobatto_4d (pts wts : list (option R)) (quad_order dim : Z) : res (list (option R) * list (option R)) :=
  loop (Z.to_nat (quad_order * quad_order * quad_order * quad_order)) (fun m '(pts, wts) =>
    do (i, j, k, l) <- index_4d (Z.of_nat m) quad_order dim;
    do wts <- set wts (m * 4 + 0) (Some 1%R);
    do wts <- set wts (m * 4 + 1) (Some 1%R);
    do wts <- set wts (m * 4 + 2) (Some 1%R);
    do wts <- set wts (m * 4 + 3) (Some 1%R);
    do (x, w, pts, wts) <- direction line_lobatto_info 4 m 0 i quad_order (None, None, pts, wts);
    do (x, w, pts, wts) <- direction line_lobatto_info 4 m 1 j quad_order (x, w, pts, wts);
    do (x, w, pts, wts) <- direction line_lobatto_info 4 m 2 k quad_order (x, w, pts, wts);
    do (x, w, pts, wts) <- direction line_lobatto_info 4 m 3 l quad_order (x, w, pts, wts);
    Ok (pts, wts)) (pts, wts).
