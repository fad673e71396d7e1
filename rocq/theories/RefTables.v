(** The tables of points and weights of the quadrature rules,
    apps/multiphysics/src/common/include/ref_quadrature.hpp.

    The literals of the source are decimal fractions with at most 33 places.
    Here each is the integer it is times 10^33 ([dec] in RefModel.v divides it
    again), so nothing is rounded.  The rules the source writes with square
    roots or quotients (Lobatto rules of up to six points) are in RefModel.v.
    Points are listed in the order of the index the source stores them at. *)
From Coq Require Import ZArith List.
Import ListNotations.
Open Scope Z_scope.

(* apps/multiphysics/src/common/include/ref_quadrature.hpp:91-306 get_lobatto_nodes_1D, the branches of decimal literals. *)
Definition lobatto_nodes_z (n : nat) : option (list Z) :=
  match n with
  | 7%nat => Some
      [-1000000000000000000000000000000000;
       -830223896278566929872032213967000;
       -468848793470714213803771881909000;
       0;
       468848793470714213803771881909000;
       830223896278566929872032213967000;
       1000000000000000000000000000000000]
  | 8%nat => Some
      [-1000000000000000000000000000000000;
       -871740148509606615337445761221000;
       -591700181433142302144510731398000;
       -209299217902478868768657260345000;
       209299217902478868768657260345000;
       591700181433142302144510731398000;
       871740148509606615337445761221000;
       1000000000000000000000000000000000]
  | 9%nat => Some
      [-1000000000000000000000000000000000;
       -899757995411460157312345244418000;
       -677186279510737753445885427091000;
       -363117463826178158710752068709000;
       0;
       363117463826178158710752068709000;
       677186279510737753445885427091000;
       899757995411460157312345244418000;
       1000000000000000000000000000000000]
  | 10%nat => Some
      [-1000000000000000000000000000000000;
       -919533908166458813828932660822000;
       -738773865105505075003106174860000;
       -477924949810444495661175092731000;
       -165278957666387024626219765958000;
       165278957666387024626219765958000;
       477924949810444495661175092731000;
       738773865105505075003106174860000;
       919533908166458813828932660822000;
       1000000000000000000000000000000000]
  | 11%nat => Some
      [-1000000000000000000000000000000000;
       -934001430408059134332274136099000;
       -784483473663144418622417816108000;
       -565235326996205006470963969478000;
       -295758135586939391431911515559000;
       0;
       295758135586939391431911515559000;
       565235326996205006470963969478000;
       784483473663144418622417816108000;
       934001430408059134332274136099000;
       1000000000000000000000000000000000]
  | 12%nat => Some
      [-1000000000000000000000000000000000;
       -944899272222882223407580138303000;
       -819279321644006678348641581717000;
       -632876153031869677662404854444000;
       -399530940965348932264349791567000;
       -136552932854927554864061855740000;
       136552932854927554864061855740000;
       399530940965348932264349791567000;
       632876153031869677662404854444000;
       819279321644006678348641581717000;
       944899272222882223407580138303000;
       1000000000000000000000000000000000]
  | 13%nat => Some
      [-1000000000000000000000000000000000;
       -953309846642163911896905464755000;
       -846347564651872316865925607099000;
       -686188469081757426072759039566000;
       -482909821091336201746937233637000;
       -249286930106239992568673700374000;
       0;
       249286930106239992568673700374000;
       482909821091336201746937233637000;
       686188469081757426072759039566000;
       846347564651872316865925607099000;
       953309846642163911896905464755000;
       1000000000000000000000000000000000]
  | 14%nat => Some
      [-1000000000000000000000000000000000;
       -959935045267260901355100162015000;
       -867801053830347251000220202908000;
       -728868599091326140584672400521000;
       -550639402928647055316622705859000;
       -342724013342712845043903403642000;
       -116331868883703867658776709736000;
       116331868883703867658776709736000;
       342724013342712845043903403642000;
       550639402928647055316622705859000;
       728868599091326140584672400521000;
       867801053830347251000220202908000;
       959935045267260901355100162015000;
       1000000000000000000000000000000000]
  | 15%nat => Some
      [-1000000000000000000000000000000000;
       -965245926503838572795851392070000;
       -885082044222976298825401631482000;
       -763519689951815200704118475976000;
       -606253205469845711123529938637000;
       -420638054713672480921896938739000;
       -215353955363794238225679446273000;
       0;
       215353955363794238225679446273000;
       420638054713672480921896938739000;
       606253205469845711123529938637000;
       763519689951815200704118475976000;
       885082044222976298825401631482000;
       965245926503838572795851392070000;
       1000000000000000000000000000000000]
  | 16%nat => Some
      [-1000000000000000000000000000000000;
       -969568046270217932952242738367000;
       -899200533093472092994628261520000;
       -792008291861815063931088270963000;
       -652388702882493089467883219641000;
       -486059421887137611781890785847000;
       -299830468900763208098353454722000;
       -101326273521949447843033005046000;
       101326273521949447843033005046000;
       299830468900763208098353454722000;
       486059421887137611781890785847000;
       652388702882493089467883219641000;
       792008291861815063931088270963000;
       899200533093472092994628261520000;
       969568046270217932952242738367000;
       1000000000000000000000000000000000]
  | 17%nat => Some
      [-1000000000000000000000000000000000;
       -973132176631418314156979501874000;
       -910879995915573595623802506398000;
       -815696251221770307106750553238000;
       -691028980627684705394919357372000;
       -541385399330101539123733407504000;
       -372174433565477041907234680735000;
       -189511973518317388304263014753000;
       0;
       189511973518317388304263014753000;
       372174433565477041907234680735000;
       541385399330101539123733407504000;
       691028980627684705394919357372000;
       815696251221770307106750553238000;
       910879995915573595623802506398000;
       973132176631418314156979501874000;
       1000000000000000000000000000000000]
  | 18%nat => Some
      [-1000000000000000000000000000000000;
       -976105557412198542864518924342000;
       -920649185347533873837854625431000;
       -835593535218090213713646362328000;
       -723679329283242681306210365302000;
       -588504834318661761173535893194000;
       -434415036912123975342287136741000;
       -266362652878280984167665332026000;
       -89749093484652111022645010088600;
       89749093484652111022645010088600;
       266362652878280984167665332026000;
       434415036912123975342287136741000;
       588504834318661761173535893194000;
       723679329283242681306210365302000;
       835593535218090213713646362328000;
       920649185347533873837854625431000;
       976105557412198542864518924342000;
       1000000000000000000000000000000000]
  | 19%nat => Some
      [-1000000000000000000000000000000000;
       -978611766222080095152634063110000;
       -928901528152586243717940258797000;
       -852460577796646093085955970041000;
       -751494202552613014163637489634000;
       -628908137265220497766832306229000;
       -488229285680713502777909637625000;
       -333504847824498610298500103845000;
       -169186023409281571375154153445000;
       0;
       169186023409281571375154153445000;
       333504847824498610298500103845000;
       488229285680713502777909637625000;
       628908137265220497766832306229000;
       751494202552613014163637489634000;
       852460577796646093085955970041000;
       928901528152586243717940258797000;
       978611766222080095152634063110000;
       1000000000000000000000000000000000]
  | 20%nat => Some
      [-1000000000000000000000000000000000;
       -980743704893914171925446438584000;
       -935934498812665435716181584931000;
       -866877978089950141309847214616000;
       -775368260952055870414317527595000;
       -663776402290311289846403322971000;
       -534992864031886261648135961829000;
       -392353183713909299386474703816000;
       -239551705922986495182401356927000;
       -80545937238821837975944518159600;
       80545937238821837975944518159600;
       239551705922986495182401356927000;
       392353183713909299386474703816000;
       534992864031886261648135961829000;
       663776402290311289846403322971000;
       775368260952055870414317527595000;
       866877978089950141309847214616000;
       935934498812665435716181584931000;
       980743704893914171925446438584000;
       1000000000000000000000000000000000]
  | _ => None
  end.

(* apps/multiphysics/src/common/include/ref_quadrature.hpp:355-570 get_lobatto_weights_1D, the branches of decimal literals. *)
Definition lobatto_weights_z (n : nat) : option (list Z) :=
  match n with
  | 7%nat => Some
      [47619047619047619047619047619000;
       276826047361565948010700406290000;
       431745381209862623417871022281000;
       487619047619047619047619047619000;
       431745381209862623417871022281000;
       276826047361565948010700406290000;
       47619047619047619047619047619000]
  | 8%nat => Some
      [35714285714285714285714285714300;
       210704227143506039382991065776000;
       341122692483504364764240677108000;
       412458794658703881567052971402000;
       412458794658703881567052971402000;
       341122692483504364764240677108000;
       210704227143506039382991065776000;
       35714285714285714285714285714300]
  | 9%nat => Some
      [27777777777777777777777777777800;
       165495361560805525046339720029000;
       274538712500161735280705618579000;
       346428510973046345115131532140000;
       371519274376417233560090702948000;
       346428510973046345115131532140000;
       274538712500161735280705618579000;
       165495361560805525046339720029000;
       27777777777777777777777777777800]
  | 10%nat => Some
      [22222222222222222222222222222200;
       133305990851070111126227170755000;
       224889342063126452119457821731000;
       292042683679683757875582257374000;
       327539761183897456656510527917000;
       327539761183897456656510527917000;
       292042683679683757875582257374000;
       224889342063126452119457821731000;
       133305990851070111126227170755000;
       22222222222222222222222222222200]
  | 11%nat => Some
      [18181818181818181818181818181800;
       109612273266994864461403449580000;
       187169881780305204108141521899000;
       248048104264028314040084866422000;
       286879124779008088679222403332000;
       300217595455690693785931881170000;
       286879124779008088679222403332000;
       248048104264028314040084866422000;
       187169881780305204108141521899000;
       109612273266994864461403449580000;
       18181818181818181818181818181800]
  | 12%nat => Some
      [15151515151515151515151515151500;
       91684517413196130668342594134100;
       157974705564370115164671062700000;
       212508417761021145358302077367000;
       251275603199201280293244412148000;
       271405240910696177000288338500000;
       271405240910696177000288338500000;
       251275603199201280293244412148000;
       212508417761021145358302077367000;
       157974705564370115164671062700000;
       91684517413196130668342594134100;
       15151515151515151515151515151500]
  | 13%nat => Some
      [12820512820512820512820512820500;
       77801686746818927793588988333100;
       134981926689608349119914762589000;
       183646865203550092007494258747000;
       220767793566110086085534008379000;
       244015790306676356458578148360000;
       251930849333446736044138641541000;
       244015790306676356458578148360000;
       220767793566110086085534008379000;
       183646865203550092007494258747000;
       134981926689608349119914762589000;
       77801686746818927793588988333100;
       12820512820512820512820512820500]
  | 14%nat => Some
      [10989010989010989010989010989000;
       66837284497681284634070660746100;
       116586655898711651540996670655000;
       160021851762952142412820997988000;
       194826149373416118640331778376000;
       219126253009770754871162523954000;
       231612794468457058889628357293000;
       231612794468457058889628357293000;
       219126253009770754871162523954000;
       194826149373416118640331778376000;
       160021851762952142412820997988000;
       116586655898711651540996670655000;
       66837284497681284634070660746100;
       10989010989010989010989010989000]
  | 15%nat => Some
      [9523809523809523809523809523810;
       58029893028601249096880584025300;
       101660070325718067603666170789000;
       140511699802428109460446805644000;
       172789647253600949052077099408000;
       196987235964613356092500346507000;
       211973585926820920127430076977000;
       217048116348815649514950214251000;
       211973585926820920127430076977000;
       196987235964613356092500346507000;
       172789647253600949052077099408000;
       140511699802428109460446805644000;
       101660070325718067603666170789000;
       58029893028601249096880584025300;
       9523809523809523809523809523810]
  | 16%nat => Some
      [8333333333333333333333333333330;
       50850361005919905403244919565500;
       89393697325930800991052080166100;
       124255382132514098349536332657000;
       154026980807164280815644940485000;
       177491913391704125301075669528000;
       193690023825203584316913598854000;
       201958308178229871489199125411000;
       201958308178229871489199125411000;
       193690023825203584316913598854000;
       177491913391704125301075669528000;
       154026980807164280815644940485000;
       124255382132514098349536332657000;
       89393697325930800991052080166100;
       50850361005919905403244919565500;
       8333333333333333333333333333330]
  | 17%nat => Some
      [7352941176470588235294117647060;
       44921940543254209647400954623200;
       79198270503687119190264429952800;
       110592909007028161375772705220000;
       137987746201926559056201574954000;
       160394661997621539516328365865000;
       177004253515657870436945745363000;
       187216339677619235892088482861000;
       190661874753469433299407247028000;
       187216339677619235892088482861000;
       177004253515657870436945745363000;
       160394661997621539516328365865000;
       137987746201926559056201574954000;
       110592909007028161375772705220000;
       79198270503687119190264429952800;
       44921940543254209647400954623200;
       7352941176470588235294117647060]
  | 18%nat => Some
      [6535947712418300653594771241830;
       39970628810914066137599176410100;
       70637166885633664999222960167800;
       99016271717502802394423605318700;
       124210533132967100263396358897000;
       145411961573802267983003210494000;
       161939517237602489264326706700000;
       173262109489456226010614403827000;
       179015863439703082293818806944000;
       179015863439703082293818806944000;
       173262109489456226010614403827000;
       161939517237602489264326706700000;
       145411961573802267983003210494000;
       124210533132967100263396358897000;
       99016271717502802394423605318700;
       70637166885633664999222960167800;
       39970628810914066137599176410100;
       6535947712418300653594771241830]
  | 19%nat => Some
      [5847953216374269005847953216370;
       35793365186176477115425569035100;
       63381891762629736851695690418300;
       89131757099207084448008790556200;
       112315341477305044070910015464000;
       132267280448750776926046733910000;
       148413942595938885009680643668000;
       160290924044061241979910968184000;
       167556584527142867270137277740000;
       170001919284827234644672715617000;
       167556584527142867270137277740000;
       160290924044061241979910968184000;
       148413942595938885009680643668000;
       132267280448750776926046733910000;
       112315341477305044070910015464000;
       89131757099207084448008790556200;
       63381891762629736851695690418300;
       35793365186176477115425569035100;
       5847953216374269005847953216370]
  | 20%nat => Some
      [5263157894736842105263157894740;
       32237123188488941491605028117300;
       57181802127566826004753627173200;
       80631763996119603144776846113700;
       101991499699450815683781205733000;
       120709227628674725099429705002000;
       136300482358724184489780792989000;
       148361554070916825814713013734000;
       156580102647475487158169896794000;
       160743286387845749007726726449000;
       160743286387845749007726726449000;
       156580102647475487158169896794000;
       148361554070916825814713013734000;
       136300482358724184489780792989000;
       120709227628674725099429705002000;
       101991499699450815683781205733000;
       80631763996119603144776846113700;
       57181802127566826004753627173200;
       32237123188488941491605028117300;
       5263157894736842105263157894740]
  | _ => None
  end.

(* apps/multiphysics/src/common/include/ref_quadrature.hpp:595-821 get_legendre_nodes_1D, the branches of decimal literals. *)
Definition legendre_nodes_z (n : nat) : option (list Z) :=
  match n with
  | 1%nat => Some
      [0]
  | 2%nat => Some
      [-577350269189625764509148780501000;
       577350269189625764509148780501000]
  | 3%nat => Some
      [-774596669241483377035853079956000;
       0;
       774596669241483377035853079956000]
  | 4%nat => Some
      [-861136311594052575223946488892000;
       -339981043584856264802665759103000;
       339981043584856264802665759103000;
       861136311594052575223946488892000]
  | 5%nat => Some
      [-906179845938663992797626878299000;
       -538469310105683091036314420700000;
       0;
       538469310105683091036314420700000;
       906179845938663992797626878299000]
  | 6%nat => Some
      [-932469514203152027812301554493000;
       -661209386466264513661399595019000;
       -238619186083196908630501721680000;
       238619186083196908630501721680000;
       661209386466264513661399595019000;
       932469514203152027812301554493000]
  | 7%nat => Some
      [-949107912342758524526189684047000;
       -741531185599394439863864773280000;
       -405845151377397166906606412076000;
       0;
       405845151377397166906606412076000;
       741531185599394439863864773280000;
       949107912342758524526189684047000]
  | 8%nat => Some
      [-960289856497536231683560868569000;
       -796666477413626739591553936475000;
       -525532409916328985817739049189000;
       -183434642495649804939476142360000;
       183434642495649804939476142360000;
       525532409916328985817739049189000;
       796666477413626739591553936475000;
       960289856497536231683560868569000]
  | 9%nat => Some
      [-968160239507626089835576202903000;
       -836031107326635794299429788069000;
       -613371432700590397308702039341000;
       -324253423403808929038538014643000;
       0;
       324253423403808929038538014643000;
       613371432700590397308702039341000;
       836031107326635794299429788069000;
       968160239507626089835576202903000]
  | 10%nat => Some
      [-973906528517171720077964012084400;
       -865063366688984510732096688423400;
       -679409568299024406234327365114800;
       -433395394129247190799265943165700;
       -148874338981631210884826001129700;
       148874338981631210884826001129700;
       433395394129247190799265943165700;
       679409568299024406234327365114800;
       865063366688984510732096688423400;
       973906528517171720077964012084400]
  | 11%nat => Some
      [-978228658146056992803938001122800;
       -887062599768095299075157769303900;
       -730152005574049324093416252031100;
       -519096129206811815925725669458600;
       -269543155952344972331531985400800;
       0;
       269543155952344972331531985400800;
       519096129206811815925725669458600;
       730152005574049324093416252031100;
       887062599768095299075157769303900;
       978228658146056992803938001122800]
  | 12%nat => Some
      [-981560634246719250690549090149200;
       -904117256370474856678465866119000;
       -769902674194304687036893833212800;
       -587317954286617447296702418940500;
       -367831498998180193752691536643700;
       -125233408511468915472441369463800;
       125233408511468915472441369463800;
       367831498998180193752691536643700;
       587317954286617447296702418940500;
       769902674194304687036893833212800;
       904117256370474856678465866119000;
       981560634246719250690549090149200]
  | 13%nat => Some
      [-984183054718588149472829448807100;
       -917598399222977965206547836500710;
       -801578090733309912794206489582850;
       -642349339440340220643984606995510;
       -448492751036446852877912852127630;
       -230458315955134794065528121097980;
       0;
       230458315955134794065528121097980;
       448492751036446852877912852127630;
       642349339440340220643984606995510;
       801578090733309912794206489582850;
       917598399222977965206547836500710;
       984183054718588149472829448807100]
  | 14%nat => Some
      [-986283808696812338841597266704052;
       -928434883663573517336391139377874;
       -827201315069764993189794742650394;
       -687292904811685470148019803019334;
       -515248636358154091965290718551188;
       -319112368927889760435671824168475;
       -108054948707343662066244650219834;
       108054948707343662066244650219834;
       319112368927889760435671824168475;
       515248636358154091965290718551188;
       687292904811685470148019803019334;
       827201315069764993189794742650394;
       928434883663573517336391139377874;
       986283808696812338841597266704052]
  | 15%nat => Some
      [-987992518020485428489565718586612;
       -937273392400705904307758947710209;
       -848206583410427216200648320774216;
       -724417731360170047416186054613938;
       -570972172608538847537226737253910;
       -394151347077563369897207370981045;
       -201194093997434522300628303394596;
       0;
       201194093997434522300628303394596;
       394151347077563369897207370981045;
       570972172608538847537226737253910;
       724417731360170047416186054613938;
       848206583410427216200648320774216;
       937273392400705904307758947710209;
       987992518020485428489565718586612]
  | 16%nat => Some
      [-989400934991649932596154173450332;
       -944575023073232576077988415534608;
       -865631202387831743880467897712393;
       -755404408355003033895101194847442;
       -617876244402643748446671764048791;
       -458016777657227386342419442983577;
       -281603550779258913230460501460496;
       -95012509837637440185319335424958;
       95012509837637440185319335424958;
       281603550779258913230460501460496;
       458016777657227386342419442983577;
       617876244402643748446671764048791;
       755404408355003033895101194847442;
       865631202387831743880467897712393;
       944575023073232576077988415534608;
       989400934991649932596154173450332]
  | 17%nat => Some
      [-990575475314417335675434019940665;
       -950675521768767761222716957895803;
       -880239153726985902122955694488155;
       -781514003896801406925230055520476;
       -657671159216690765850302216643002;
       -512690537086476967886246568629551;
       -351231763453876315297185517095346;
       -178484181495847855850677493654065;
       0;
       178484181495847855850677493654065;
       351231763453876315297185517095346;
       512690537086476967886246568629551;
       657671159216690765850302216643002;
       781514003896801406925230055520476;
       880239153726985902122955694488155;
       950675521768767761222716957895803;
       990575475314417335675434019940665]
  | 18%nat => Some
      [-991565168420930946730016004706150;
       -955823949571397755181195892929776;
       -892602466497555739206060591127145;
       -803704958972523115682417455014590;
       -691687043060353207874891081288848;
       -559770831073947534607871548525329;
       -411751161462842646035931793833051;
       -251886225691505509588972854877911;
       -84775013041735301242261852935783;
       84775013041735301242261852935783;
       251886225691505509588972854877911;
       411751161462842646035931793833051;
       559770831073947534607871548525329;
       691687043060353207874891081288848;
       803704958972523115682417455014590;
       892602466497555739206060591127145;
       955823949571397755181195892929776;
       991565168420930946730016004706150]
  | 19%nat => Some
      [-992406843843584403189017670253260;
       -960208152134830030852778840687651;
       -903155903614817901642660928532312;
       -822714656537142824978922486712713;
       -720966177335229378617095860823781;
       -600545304661681023469638164946239;
       -464570741375960945717267148104102;
       -316564099963629831990117328849844;
       -160358645640225375868096115740743;
       0;
       160358645640225375868096115740743;
       316564099963629831990117328849844;
       464570741375960945717267148104102;
       600545304661681023469638164946239;
       720966177335229378617095860823781;
       822714656537142824978922486712713;
       903155903614817901642660928532312;
       960208152134830030852778840687651;
       992406843843584403189017670253260]
  | _ => None
  end.

(* apps/multiphysics/src/common/include/ref_quadrature.hpp:846-1072 get_legendre_weights_1D, the branches of decimal literals. *)
Definition legendre_weights_z (n : nat) : option (list Z) :=
  match n with
  | 1%nat => Some
      [2000000000000000000000000000000000]
  | 2%nat => Some
      [1000000000000000000000000000000000;
       1000000000000000000000000000000000]
  | 3%nat => Some
      [555555555555555555555555555555555;
       888888888888888888888888888888888;
       555555555555555555555555555555555]
  | 4%nat => Some
      [347854845137453857373063949221999;
       652145154862546142626936050778000;
       652145154862546142626936050778000;
       347854845137453857373063949221999]
  | 5%nat => Some
      [236926885056189087514264040719917;
       478628670499366468041291514835638;
       568888888888888888888888888888888;
       478628670499366468041291514835638;
       236926885056189087514264040719917]
  | 6%nat => Some
      [171324492379170345040296142172732;
       360761573048138607569833513837716;
       467913934572691047389870343989550;
       467913934572691047389870343989550;
       360761573048138607569833513837716;
       171324492379170345040296142172732]
  | 7%nat => Some
      [129484966168869693270611432679082;
       279705391489276667901467771423779;
       381830050505118944950369775488975;
       417959183673469387755102040816326;
       381830050505118944950369775488975;
       279705391489276667901467771423779;
       129484966168869693270611432679082]
  | 8%nat => Some
      [101228536290376259152531354309962;
       222381034453374470544355994426240;
       313706645877887287337962201986601;
       362683783378361982965150449277195;
       362683783378361982965150449277195;
       313706645877887287337962201986601;
       222381034453374470544355994426240;
       101228536290376259152531354309962]
  | 9%nat => Some
      [81274388361574411971892158110523;
       180648160694857404058472031242912;
       260610696402935462318742869418632;
       312347077040002840068630406584443;
       330239355001259763164525069286974;
       312347077040002840068630406584443;
       260610696402935462318742869418632;
       180648160694857404058472031242912;
       81274388361574411971892158110523]
  | 10%nat => Some
      [66671344308688137593568809893331;
       149451349150580593145776339657697;
       219086362515982043995534934228163;
       269266719309996355091226921569469;
       295524224714752870173892994651338;
       295524224714752870173892994651338;
       269266719309996355091226921569469;
       219086362515982043995534934228163;
       149451349150580593145776339657697;
       66671344308688137593568809893331]
  | 11%nat => Some
      [55668567116173666482753720442548;
       125580369464904624634694299223940;
       186290210927734251426097641431655;
       233193764591990479918523704843175;
       262804544510246662180688869890509;
       272925086777900630714483528336342;
       262804544510246662180688869890509;
       233193764591990479918523704843175;
       186290210927734251426097641431655;
       125580369464904624634694299223940;
       55668567116173666482753720442548]
  | 12%nat => Some
      [47175336386511827194615961485010;
       106939325995318430960254718193990;
       160078328543346226334652529543350;
       203167426723065921749064455809790;
       233492536538354808760849898924870;
       249147045813402785000562436042950;
       249147045813402785000562436042950;
       233492536538354808760849898924870;
       203167426723065921749064455809790;
       160078328543346226334652529543350;
       106939325995318430960254718193990;
       47175336386511827194615961485010]
  | 13%nat => Some
      [40484004765315879520021592200980;
       92121499837728447914421775953790;
       138873510219787238463601776868870;
       178145980761945738280046691996090;
       207816047536888502312523219306050;
       226283180262897238412090186039770;
       232551553230873910194589515268830;
       226283180262897238412090186039770;
       207816047536888502312523219306050;
       178145980761945738280046691996090;
       138873510219787238463601776868870;
       92121499837728447914421775953790;
       40484004765315879520021592200980]
  | 14%nat => Some
      [35119460331751863031832876138190;
       80158087159760209805633277062850;
       121518570687903184689414809072470;
       157203167158193534569601938623840;
       185538397477937813741716590125150;
       205198463721295603965924065661210;
       215263853463157790195876443316260;
       215263853463157790195876443316260;
       205198463721295603965924065661210;
       185538397477937813741716590125150;
       157203167158193534569601938623840;
       121518570687903184689414809072470;
       80158087159760209805633277062850;
       35119460331751863031832876138190]
  | 15%nat => Some
      [30753241996117268354628393577200;
       70366047488108124709267416450660;
       107159220467171935011869546685860;
       139570677926154314447804794511020;
       166269205816993933553200860481200;
       186161000015562211026800561866420;
       198431485327111576456118326443830;
       202578241925561272880620199967510;
       198431485327111576456118326443830;
       186161000015562211026800561866420;
       166269205816993933553200860481200;
       139570677926154314447804794511020;
       107159220467171935011869546685860;
       70366047488108124709267416450660;
       30753241996117268354628393577200]
  | 16%nat => Some
      [27152459411754094851780572456010;
       62253523938647892862843836994370;
       95158511682492784809925107602240;
       124628971255533872052476282192010;
       149595988816576732081501730547470;
       169156519395002538189312079030350;
       182603415044923588866763667969210;
       189450610455068496285396723208280;
       189450610455068496285396723208280;
       182603415044923588866763667969210;
       169156519395002538189312079030350;
       149595988816576732081501730547470;
       124628971255533872052476282192010;
       95158511682492784809925107602240;
       62253523938647892862843836994370;
       27152459411754094851780572456010]
  | 17%nat => Some
      [24148302868547931960110026287560;
       55459529373987201129440165358240;
       85036148317179180883535370191060;
       111883847193403971094788385626350;
       135136368468525473286319981702350;
       154045761076810288081431594801950;
       168004102156450044509970663788320;
       176562705366992646325270990113190;
       179446470356206525458265644261880;
       176562705366992646325270990113190;
       168004102156450044509970663788320;
       154045761076810288081431594801950;
       135136368468525473286319981702350;
       111883847193403971094788385626350;
       85036148317179180883535370191060;
       55459529373987201129440165358240;
       24148302868547931960110026287560]
  | 18%nat => Some
      [21616013526483310313342710266450;
       49714548894969796453334946202630;
       76425730254889056529129677616630;
       100942044106287165562813984924830;
       122555206711478460184519126800200;
       140642914670650651204731303751940;
       154684675126265244925418003836370;
       164276483745832722986053776465920;
       169142382963143591840656470134980;
       169142382963143591840656470134980;
       164276483745832722986053776465920;
       154684675126265244925418003836370;
       140642914670650651204731303751940;
       122555206711478460184519126800200;
       100942044106287165562813984924830;
       76425730254889056529129677616630;
       49714548894969796453334946202630;
       21616013526483310313342710266450]
  | 19%nat => Some
      [19461788229726477036312041464430;
       44814226765699600332838157401990;
       69044542737641226580708258006010;
       91490021622449999464462094123830;
       111566645547333994716023901681760;
       128753962539336227675515784856870;
       142606702173606611775746109441900;
       152766042065859666778855400897660;
       158968843393954347649956439465040;
       161054449848783695979163625320910;
       158968843393954347649956439465040;
       152766042065859666778855400897660;
       142606702173606611775746109441900;
       128753962539336227675515784856870;
       111566645547333994716023901681760;
       91490021622449999464462094123830;
       69044542737641226580708258006010;
       44814226765699600332838157401990;
       19461788229726477036312041464430]
  | _ => None
  end.
