(** * The embedded Beider-Morse rules (rules/bm, included at src/beider_morse/rule.rs:436-494).
    Generated by tools/gen_bm.py: file names and contents copied verbatim. *)
From Verif Require Import Base BmLanguages.

Definition bm_embedded_files_f_ash_approx_any : ustr := Eval vm_compute in str "/*
 * Licensed to the Apache Software Foundation (ASF) under one or more
 * contributor license agreements.  See the NOTICE file distributed with
 * this work for additional information regarding copyright ownership.
 * The ASF licenses this file to You under the Apache License, Version 2.0
 * (the ""License""); you may not use this file except in compliance with
 * the License.  You may obtain a copy of the License at
 *
 *      http://www.apache.org/licenses/LICENSE-2.0
 *
 * Unless required by applicable law or agreed to in writing, software
 * distributed under the License is distributed on an ""AS IS"" BASIS,
 * WITHOUT WARRANTIES OR CONDITIONS OF ANY KIND, either express or implied.
 * See the License for the specific language governing permissions and
 * limitations under the License.
 */

// ASHKENAZIC

// A, E, I, O, P, U should create variants, but a, e, i, o, u should not create any new variant
// Q = ü ; Y = ä = ö
// H = initial ""H"" in German/English

// CONSONANTS
""b"" """" """" ""(b|v[spanish])""
""J""  """"  """"  ""z"" // Argentina Spanish: ""ll"" = /Z/, but approximately /Z/ = /z/
    
// VOWELS
// ""ALL"" DIPHTHONGS are interchangeable BETWEEN THEM and with monophthongs of which they are composed (""D"" means ""diphthong"")
//  {a,o} are totally interchangeable if non-stressed; in German ""a/o"" can actually be from ""ä/ö"" (that are equivalent to ""e"")
//  {i,e} are interchangeable if non-stressed, while in German ""u"" can actually be from ""ü"" (that is equivalent to ""i"")
    
""aiB"" """" ""[bp]"" ""(D|Dm)""
""AiB"" """" ""[bp]"" ""(D|Dm)""
""oiB"" """" ""[bp]"" ""(D|Dm)""
""OiB"" """" ""[bp]"" ""(D|Dm)""
""uiB"" """" ""[bp]"" ""(D|Dm)""
""UiB"" """" ""[bp]"" ""(D|Dm)""
""eiB"" """" ""[bp]"" ""(D|Dm)""
""EiB"" """" ""[bp]"" ""(D|Dm)""
""iiB"" """" ""[bp]"" ""(D|Dm)""
""IiB"" """" ""[bp]"" ""(D|Dm)""
    
""aiB"" """" ""[dgkstvz]"" ""(D|Dn)""
""AiB"" """" ""[dgkstvz]"" ""(D|Dn)""
""oiB"" """" ""[dgkstvz]"" ""(D|Dn)""
""OiB"" """" ""[dgkstvz]"" ""(D|Dn)""
""uiB"" """" ""[dgkstvz]"" ""(D|Dn)""
""UiB"" """" ""[dgkstvz]"" ""(D|Dn)""
""eiB"" """" ""[dgkstvz]"" ""(D|Dn)""
""EiB"" """" ""[dgkstvz]"" ""(D|Dn)""
""iiB"" """" ""[dgkstvz]"" ""(D|Dn)""
""IiB"" """" ""[dgkstvz]"" ""(D|Dn)""
      
""B"" """" ""[bp]"" ""(o|om[polish]|im[polish])""
""B"" """" ""[dgkstvz]"" ""(a|o|on[polish]|in[polish])""
""B""  """"  """"  ""(a|o)""
    
""aiF"" """" ""[bp]"" ""(D|Dm)""
""AiF"" """" ""[bp]"" ""(D|Dm)""
""oiF"" """" ""[bp]"" ""(D|Dm)""
""OiF"" """" ""[bp]"" ""(D|Dm)""
""uiF"" """" ""[bp]"" ""(D|Dm)""
""UiF"" """" ""[bp]"" ""(D|Dm)""
""eiF"" """" ""[bp]"" ""(D|Dm)""
""EiF"" """" ""[bp]"" ""(D|Dm)""
""iiF"" """" ""[bp]"" ""(D|Dm)""
""IiF"" """" ""[bp]"" ""(D|Dm)""
        
""aiF"" """" ""[dgkstvz]"" ""(D|Dn)""
""AiF"" """" ""[dgkstvz]"" ""(D|Dn)""
""oiF"" """" ""[dgkstvz]"" ""(D|Dn)""
""OiF"" """" ""[dgkstvz]"" ""(D|Dn)""
""uiF"" """" ""[dgkstvz]"" ""(D|Dn)""
""UiF"" """" ""[dgkstvz]"" ""(D|Dn)""
""eiF"" """" ""[dgkstvz]"" ""(D|Dn)""
""EiF"" """" ""[dgkstvz]"" ""(D|Dn)""
""iiF"" """" ""[dgkstvz]"" ""(D|Dn)""
""IiF"" """" ""[dgkstvz]"" ""(D|Dn)""
            
""F"" """" ""[bp]"" ""(i|im[polish]|om[polish])""
""F"" """" ""[dgkstvz]"" ""(i|in[polish]|on[polish])""
""F""  """"  """"  ""i""
        
""P""  """"  """"  ""(o|u)""
        
""I""  ""[aeiouAEIBFOUQY]""  """"  ""i""
""I"" """" ""[^aeiouAEBFIOU]e"" ""(Q[german]|i|D[english])""  // ""line""
""I""  """"  ""$""  ""i""
""I""  """"  ""[^k]$""  ""i""
""Ik""  ""[lr]""  ""$""  ""(ik|Qk[german])""
""Ik""  """"  ""$""  ""ik""
""sIts""  """"  ""$""  ""(sits|sQts[german])""
""Its""  """"  ""$""  ""its""
""I""  """"  """"  ""(Q[german]|i)""
   
""lE"" ""[bdfgkmnprsStvzZ]"" ""$"" ""(li|il[english])""  // Apple < Appel
""lE"" ""[bdfgkmnprsStvzZ]"" """" ""(li|il[english]|lY[german])""  // Applebaum < Appelbaum
    
""au"" """" """" ""(D|a|u)""
""ou"" """" """" ""(D|o|u)""
    
""ai"" """" """" ""(D|a|i)""
""Ai"" """" """" ""(D|a|i)""
""oi"" """" """" ""(D|o|i)""
""Oi"" """" """" ""(D|o|i)""
""ui"" """" """" ""(D|u|i)""
""Ui"" """" """" ""(D|u|i)""
""ei"" """" """" ""(D|i)""
""Ei"" """" """" ""(D|i)""
    
""iA"" """" ""$"" ""(ia|io)""
""iA"" """" """" ""(ia|io|iY[german])""
""A"" """" ""[^aeiouAEBFIOU]e"" ""(a|o|Y[german]|D[english])"" // ""plane""
        
""E"" ""i[^aeiouAEIOU]"" """" ""(i|Y[german]|[english])"" // Wineberg (vineberg/vajneberg) --> vajnberg
""E"" ""a[^aeiouAEIOU]"" """" ""(i|Y[german]|[english])"" //  Shaneberg (shaneberg/shejneberg) --> shejnberg
        
""e""  """"  ""[fklmnprstv]$""  ""i""
""e""  """"  ""ts$""  ""i""
""e""  """"  ""$""  ""i""
""e""  ""[DaoiuAOIUQY]""  """"  ""i""
""e""  """"  ""[aoAOQY]""  ""i""
""e""  """"  """"  ""(i|Y[german])""
    
""E""  """"  ""[fklmnprst]$""  ""i""
""E""  """"  ""ts$""  ""i""
""E""  """"  ""$""  ""i""
""E""  ""[DaoiuAOIUQY]""  """"  ""i""
""E""  """"  ""[aoAOQY]""  ""i""
""E""  """"  """"  ""(i|Y[german])""
        
""a""  """"  """"  ""(a|o)""
    
""O""  """"  ""[fklmnprstv]$""  ""o""
""O""  """"  ""ts$""  ""o""
""O""  """"  ""$""  ""o""
""O""  ""[oeiuQY]""  """"  ""o""
""O""  """"  """"  ""(o|Y[german])""
    
""A""  """"  ""[fklmnprst]$""  ""(a|o)""
""A""  """"  ""ts$""  ""(a|o)""
""A""  """"  ""$""  ""(a|o)""
""A""  ""[oeiuQY]""  """"  ""(a|o)""
""A""  """"  """"  ""(a|o|Y[german])""

""U""  """"  ""$""  ""u""
""U""  ""[DoiuQY]""  """"  ""u""
""U""  """"  ""[^k]$""  ""u""
""Uk""  ""[lr]""  ""$""  ""(uk|Qk[german])""
""Uk""  """"  ""$""  ""uk""
  
""sUts""  """"  ""$""  ""(suts|sQts[german])""
""Uts""  """"  ""$""  ""uts""
""U""  """"  """"  ""(u|Q[german])""
"%string.
Definition bm_embedded_files_f_ash_approx_common : ustr := Eval vm_compute in str "/*
 * Licensed to the Apache Software Foundation (ASF) under one or more
 * contributor license agreements.  See the NOTICE file distributed with
 * this work for additional information regarding copyright ownership.
 * The ASF licenses this file to You under the Apache License, Version 2.0
 * (the ""License""); you may not use this file except in compliance with
 * the License.  You may obtain a copy of the License at
 *
 *      http://www.apache.org/licenses/LICENSE-2.0
 *
 * Unless required by applicable law or agreed to in writing, software
 * distributed under the License is distributed on an ""AS IS"" BASIS,
 * WITHOUT WARRANTIES OR CONDITIONS OF ANY KIND, either express or implied.
 * See the License for the specific language governing permissions and
 * limitations under the License.
 */

#include ash_exact_approx_common

// REGRESSIVE ASSIMILATION OF CONSONANTS
""n""	""""	""[bp]""	""m"" 

// PECULIARITY OF ""h"" 
""h""	""""	""""	"""" 
""H""	""""	""""	""(x|)"" 

// POLISH OGONEK IMPOSSIBLE
""F"" """" ""[bdgkpstvzZ]h"" ""e""
""F"" """" ""[bdgkpstvzZ]x"" ""e""
""B"" """" ""[bdgkpstvzZ]h"" ""a""
""B"" """" ""[bdgkpstvzZ]x"" ""a""

// ""e"" and ""i"" ARE TO BE OMITTED BEFORE (SYLLABIC) n & l: Halperin=Halpern; Frankel = Frankl, Finkelstein = Finklstein
""e"" ""[bdfgklmnprsStvzZ]"" ""[ln]$"" """"
""i"" ""[bdfgklmnprsStvzZ]"" ""[ln]$"" """"
""E"" ""[bdfgklmnprsStvzZ]"" ""[ln]$"" """"
""I"" ""[bdfgklmnprsStvzZ]"" ""[ln]$"" """"
""F"" ""[bdfgklmnprsStvzZ]"" ""[ln]$"" """"
""Q"" ""[bdfgklmnprsStvzZ]"" ""[ln]$"" """"
""Y"" ""[bdfgklmnprsStvzZ]"" ""[ln]$"" """"

""e"" ""[bdfgklmnprsStvzZ]"" ""[ln][bdfgklmnprsStvzZ]"" """"
""i"" ""[bdfgklmnprsStvzZ]"" ""[ln][bdfgklmnprsStvzZ]"" """"
""E"" ""[bdfgklmnprsStvzZ]"" ""[ln][bdfgklmnprsStvzZ]"" """"
""I"" ""[bdfgklmnprsStvzZ]"" ""[ln][bdfgklmnprsStvzZ]"" """"
""F"" ""[bdfgklmnprsStvzZ]"" ""[ln][bdfgklmnprsStvzZ]"" """"
""Q"" ""[bdfgklmnprsStvzZ]"" ""[ln][bdfgklmnprsStvzZ]"" """"
""Y"" ""[bdfgklmnprsStvzZ]"" ""[ln][bdfgklmnprsStvzZ]"" """"

""lEs""	""""	""""	""(lEs|lz)""  // Applebaum < Appelbaum (English + blend English-something forms as Finklestein)
""lE""	""[bdfgkmnprStvzZ]""	""""	""(lE|l)""  // Applebaum < Appelbaum (English + blend English-something forms as Finklestein)

// SIMPLIFICATION: (TRIPHTHONGS & DIPHTHONGS) -> ONE GENERIC DIPHTHONG ""D""
""aue""	""""	""""	""D""
""oue""	""""	""""	""D""
    
""AvE""	""""	""""	""(D|AvE)""
""Ave""	""""	""""	""(D|Ave)""
""avE""	""""	""""	""(D|avE)""
""ave""	""""	""""	""(D|ave)""
    
""OvE""	""""	""""	""(D|OvE)""
""Ove""	""""	""""	""(D|Ove)""
""ovE""	""""	""""	""(D|ovE)""
""ove""	""""	""""	""(D|ove)""
    
""ea""	""""	""""	""(D|ea)""
""EA""	""""	""""	""(D|EA)""
""Ea""	""""	""""	""(D|Ea)""
""eA""	""""	""""	""(D|eA)""
             
""aji""	""""	""""	""D""
""ajI""	""""	""""	""D""
""aje""	""""	""""	""D""
""ajE""	""""	""""	""D""
    
""Aji""	""""	""""	""D""
""AjI""	""""	""""	""D""
""Aje""	""""	""""	""D""
""AjE""	""""	""""	""D""
    
""oji""	""""	""""	""D""
""ojI""	""""	""""	""D""
""oje""	""""	""""	""D""
""ojE""	""""	""""	""D""
    
""Oji""	""""	""""	""D""
""OjI""	""""	""""	""D""
""Oje""	""""	""""	""D""
""OjE""	""""	""""	""D""
    
""eji""	""""	""""	""D""
""ejI""	""""	""""	""D""
""eje""	""""	""""	""D""
""ejE""	""""	""""	""D""
    
""Eji""	""""	""""	""D""
""EjI""	""""	""""	""D""
""Eje""	""""	""""	""D""
""EjE""	""""	""""	""D""
    
""uji""	""""	""""	""D""
""ujI""	""""	""""	""D""
""uje""	""""	""""	""D""
""ujE""	""""	""""	""D""
    
""Uji""	""""	""""	""D""
""UjI""	""""	""""	""D""
""Uje""	""""	""""	""D""
""UjE""	""""	""""	""D""
        
""iji""	""""	""""	""D""
""ijI""	""""	""""	""D""
""ije""	""""	""""	""D""
""ijE""	""""	""""	""D""
    
""Iji""	""""	""""	""D""
""IjI""	""""	""""	""D""
""Ije""	""""	""""	""D""
""IjE""	""""	""""	""D""
                         
""aja""	""""	""""	""D""
""ajA""	""""	""""	""D""
""ajo""	""""	""""	""D""
""ajO""	""""	""""	""D""
""aju""	""""	""""	""D""
""ajU""	""""	""""	""D""
    
""Aja""	""""	""""	""D""
""AjA""	""""	""""	""D""
""Ajo""	""""	""""	""D""
""AjO""	""""	""""	""D""
""Aju""	""""	""""	""D""
""AjU""	""""	""""	""D""
    
""oja""	""""	""""	""D""
""ojA""	""""	""""	""D""
""ojo""	""""	""""	""D""
""ojO""	""""	""""	""D""
""Aju""	""""	""""	""D""
""AjU""	""""	""""	""D""
    
""Oja""	""""	""""	""D""
""OjA""	""""	""""	""D""
""Ojo""	""""	""""	""D""
""OjO""	""""	""""	""D""
""Aju""	""""	""""	""D""
""AjU""	""""	""""	""D""
    
""eja""	""""	""""	""D""
""ejA""	""""	""""	""D""
""ejo""	""""	""""	""D""
""ejO""	""""	""""	""D""
""Aju""	""""	""""	""D""
""AjU""	""""	""""	""D""
    
""Eja""	""""	""""	""D""
""EjA""	""""	""""	""D""
""Ejo""	""""	""""	""D""
""EjO""	""""	""""	""D""
""Aju""	""""	""""	""D""
""AjU""	""""	""""	""D""
    
""uja""	""""	""""	""D""
""ujA""	""""	""""	""D""
""ujo""	""""	""""	""D""
""ujO""	""""	""""	""D""
""Aju""	""""	""""	""D""
""AjU""	""""	""""	""D""
        
""Uja""	""""	""""	""D""
""UjA""	""""	""""	""D""
""Ujo""	""""	""""	""D""
""UjO""	""""	""""	""D""
""Aju""	""""	""""	""D""
""AjU""	""""	""""	""D""
        
""ija""	""""	""""	""D""
""ijA""	""""	""""	""D""
""ijo""	""""	""""	""D""
""ijO""	""""	""""	""D""
""Aju""	""""	""""	""D""
""AjU""	""""	""""	""D""
    
""Ija""	""""	""""	""D""
""IjA""	""""	""""	""D""
""Ijo""	""""	""""	""D""
""IjO""	""""	""""	""D""                         
""Aju""	""""	""""	""D""
""AjU""	""""	""""	""D""
                         
""j""	""""	""""	""i""                         
                         
// lander = lender = länder 
""lYndEr""	""""	""$""	""lYnder"" 
""lander""	""""	""$""	""lYnder"" 
""lAndEr""	""""	""$""	""lYnder"" 
""lAnder""	""""	""$""	""lYnder"" 
""landEr""	""""	""$""	""lYnder"" 
""lender""	""""	""$""	""lYnder"" 
""lEndEr""	""""	""$""	""lYnder"" 
""lendEr""	""""	""$""	""lYnder"" 
""lEnder""	""""	""$""	""lYnder"" 

// burg = berg
""bUrk"" """" ""$"" ""(burk|berk)""
""burk"" """" ""$"" ""(burk|berk)""
""bUrg"" """" ""$"" ""(burk|berk)""
""burg"" """" ""$"" ""(burk|berk)""

// CONSONANTS {z & Z; s & S} are approximately interchangeable
""s"" """" ""[rmnl]"" ""z""
""S"" """" ""[rmnl]"" ""z""
""s"" ""[rmnl]"" """" ""z""
""S"" ""[rmnl]"" """" ""z""
    
""dS"" """" ""$"" ""S""
""dZ"" """" ""$"" ""S""
""Z"" """" ""$"" ""S""
""S"" """" ""$"" ""(S|s)""
""z"" """" ""$"" ""(S|s)""
    
""S"" """" """" ""s""
""dZ"" """" """" ""z""
""Z"" """" """" ""z"""%string.
Definition bm_embedded_files_f_ash_exact_any : ustr := Eval vm_compute in str "/*
 * Licensed to the Apache Software Foundation (ASF) under one or more
 * contributor license agreements.  See the NOTICE file distributed with
 * this work for additional information regarding copyright ownership.
 * The ASF licenses this file to You under the Apache License, Version 2.0
 * (the ""License""); you may not use this file except in compliance with
 * the License.  You may obtain a copy of the License at
 *
 *      http://www.apache.org/licenses/LICENSE-2.0
 *
 * Unless required by applicable law or agreed to in writing, software
 * distributed under the License is distributed on an ""AS IS"" BASIS,
 * WITHOUT WARRANTIES OR CONDITIONS OF ANY KIND, either express or implied.
 * See the License for the specific language governing permissions and
 * limitations under the License.
 */

// These rules are applied after the word has been transliterated into the phonetic alphabet
// These rules are substitution rules within the phonetic character space rather than mapping rules

// format of each entry rule in the table
//   (pattern, left context, right context, phonetic)
// where
//   pattern is a sequence of characters that might appear after a word has been transliterated into phonetic alphabet
//   left context is the context that precedes the pattern
//   right context is the context that follows the pattern
//   phonetic is the result that this rule generates
//
// note that both left context and right context can be regular expressions
// ex: left context of ^ would mean start of word
//     right context of $ means end of word
//
// match occurs if all of the following are true:
//   portion of word matches the pattern
//   that portion satisfies the context

// A, E, I, O, P, U should create variants, but a, e, i, o, u should not create any new variant
// Q = ü ; Y = ä = ö


""A"" """" """" ""a""
""B"" """" """" ""a""

""E"" """" """" ""e""
""F"" """" """" ""e""

""I"" """" """" ""i""
""O"" """" """" ""o""
""P"" """" """" ""o""
""U"" """" """" ""u""

""J"" """" """" ""l""
"%string.
Definition bm_embedded_files_f_ash_exact_approx_common : ustr := Eval vm_compute in str "/*
 * Licensed to the Apache Software Foundation (ASF) under one or more
 * contributor license agreements.  See the NOTICE file distributed with
 * this work for additional information regarding copyright ownership.
 * The ASF licenses this file to You under the Apache License, Version 2.0
 * (the ""License""); you may not use this file except in compliance with
 * the License.  You may obtain a copy of the License at
 *
 *      http://www.apache.org/licenses/LICENSE-2.0
 *
 * Unless required by applicable law or agreed to in writing, software
 * distributed under the License is distributed on an ""AS IS"" BASIS,
 * WITHOUT WARRANTIES OR CONDITIONS OF ANY KIND, either express or implied.
 * See the License for the specific language governing permissions and
 * limitations under the License.
 */

// Ashkenazic
    
""h"" """" ""$"" """"
// VOICED - UNVOICED CONSONANTS
""b"" """" ""[fktSs]"" ""p""
""b"" """" ""p"" """"
""b"" """" ""$"" ""p""
""p"" """" ""[gdZz]"" ""b""
""p"" """" ""b"" """"
    
""v"" """" ""[pktSs]"" ""f""
""v"" """" ""f"" """"
""v"" """" ""$"" ""f""
""f"" """" ""[bgdZz]"" ""v""
""f"" """" ""v"" """"
    
""g"" """" ""[pftSs]"" ""k""
""g"" """" ""k"" """"
""g"" """" ""$"" ""k""
""k"" """" ""[bdZz]"" ""g""
""k"" """" ""g"" """"
    
""d"" """" ""[pfkSs]"" ""t""
""d"" """" ""t"" """"
""d"" """" ""$"" ""t""
""t"" """" ""[bgZz]"" ""d""
""t"" """" ""d"" """"

""s"" """" ""dZ"" """"
""s"" """" ""tS"" """"
    
""z"" """" ""[pfkSt]"" ""s""
""z"" """" ""[sSzZ]"" """"
""s"" """" ""[sSzZ]"" """"
""Z"" """" ""[sSzZ]"" """"
""S"" """" ""[sSzZ]"" """"
       
// SIMPLIFICATION OF CONSONANT CLUSTERS

""jnm"" """" """" ""jm""

// DOUBLE --> SINGLE

""ji"" ""^"" """" ""i""
""jI"" ""^"" """" ""I""
    
""a"" """" ""[aAB]"" """" 
""a"" ""[AB]"" """" """" 
""A"" """" ""A"" """"
""B"" """" ""B"" """"
    
""b"" """" ""b"" """"
""d"" """" ""d"" """"
""f"" """" ""f"" """"
""g"" """" ""g"" """"
""k"" """" ""k"" """"
""l"" """" ""l"" """"
""m"" """" ""m"" """"
""n"" """" ""n"" """"
""p"" """" ""p"" """"
""r"" """" ""r"" """"
""t"" """" ""t"" """"
""v"" """" ""v"" """"
""z"" """" ""z"" """"
    "%string.
Definition bm_embedded_files_f_ash_exact_common : ustr := Eval vm_compute in str "/*
 * Licensed to the Apache Software Foundation (ASF) under one or more
 * contributor license agreements.  See the NOTICE file distributed with
 * this work for additional information regarding copyright ownership.
 * The ASF licenses this file to You under the Apache License, Version 2.0
 * (the ""License""); you may not use this file except in compliance with
 * the License.  You may obtain a copy of the License at
 *
 *      http://www.apache.org/licenses/LICENSE-2.0
 *
 * Unless required by applicable law or agreed to in writing, software
 * distributed under the License is distributed on an ""AS IS"" BASIS,
 * WITHOUT WARRANTIES OR CONDITIONS OF ANY KIND, either express or implied.
 * See the License for the specific language governing permissions and
 * limitations under the License.
 */

#include ash_exact_approx_common

""H"" """" """" ""h""
 
// VOICED - UNVOICED CONSONANTS

""s"" ""[^t]"" ""[bgZd]"" ""z""
""Z"" """" ""[pfkst]"" ""S""
""Z"" """" ""$"" ""S""
""S"" """" ""[bgzd]"" ""Z""
""z"" """" ""$"" ""s""
    
""ji"" ""[aAoOeEiIuU]"" """" ""j""
""jI"" ""[aAoOeEiIuU]"" """" ""j""
""je"" ""[aAoOeEiIuU]"" """" ""j""
""jE"" ""[aAoOeEiIuU]"" """" ""j""
"%string.
Definition bm_embedded_files_f_ash_rules_any : ustr := Eval vm_compute in str "/*
 * Licensed to the Apache Software Foundation (ASF) under one or more
 * contributor license agreements.  See the NOTICE file distributed with
 * this work for additional information regarding copyright ownership.
 * The ASF licenses this file to You under the Apache License, Version 2.0
 * (the ""License""); you may not use this file except in compliance with
 * the License.  You may obtain a copy of the License at
 *
 *      http://www.apache.org/licenses/LICENSE-2.0
 *
 * Unless required by applicable law or agreed to in writing, software
 * distributed under the License is distributed on an ""AS IS"" BASIS,
 * WITHOUT WARRANTIES OR CONDITIONS OF ANY KIND, either express or implied.
 * See the License for the specific language governing permissions and
 * limitations under the License.
 */

//ASHKENAZIC

// CONVERTING FEMININE TO MASCULINE
""yna"" """" ""$"" ""(in[russian]|ina)""
""ina"" """" ""$"" ""(in[russian]|ina)""
""liova"" """" ""$"" ""(lof[russian]|lef[russian]|lova)""
""lova"" """" ""$"" ""(lof[russian]|lef[russian]|lova)""
""ova"" """" ""$"" ""(of[russian]|ova)""
""eva"" """" ""$"" ""(ef[russian]|eva)""
""aia"" """" ""$"" ""(aja|i[russian])""
""aja"" """" ""$"" ""(aja|i[russian])""
""aya"" """" ""$"" ""(aja|i[russian])""
    
""lowa"" """" ""$"" ""(lova|lof[polish]|l[polish]|el[polish])""
""kowa"" """" ""$"" ""(kova|kof[polish]|k[polish]|ek[polish])""
""owa"" """" ""$"" ""(ova|of[polish]|)""
""lowna"" """" ""$"" ""(lovna|levna|l[polish]|el[polish])""
""kowna"" """" ""$"" ""(kovna|k[polish]|ek[polish])""
""owna"" """" ""$"" ""(ovna|[polish])""
""lówna"" """" ""$"" ""(l|el[polish])""  // polish
""kówna"" """" ""$"" ""(k|ek[polish])""  // polish
""ówna"" """" ""$"" """"   // polish
    
""a"" """" ""$"" ""(a|i[polish])""
    
// CONSONANTS  (integrated: German, Polish, Russian, Romanian and English)

""rh"" ""^"" """" ""r""
""ssch"" """" """" ""S"" 
""chsch"" """" """" ""xS"" 
""tsch"" """" """" ""tS"" 
    
""sch"" """" ""[ei]"" ""(sk[romanian]|S|StS[russian])"" // german
""sch"" """" """" ""(S|StS[russian])"" // german
            
""ssh"" """" """" ""S"" 
    
""sh"" """" ""[äöü]"" ""sh"" // german
""sh"" """" ""[aeiou]"" ""(S[russian+english]|sh)""
""sh"" """" """" ""S"" // russian+english

""kh"" """" """" ""(x[russian+english]|kh)""

""chs"" """" """" ""(ks[german]|xs|tSs[russian+english])""

    // French ""ch"" is currently disabled
    //array(""ch"" """" ""[ei]"" ""(x|tS|k[romanian]|S[french])""
    //array(""ch"" """" """" ""(x|tS[russian+english]|S[french])""
    
""ch"" """" ""[ei]"" ""(x|k[romanian]|tS[russian+english])""
""ch"" """" """" ""(x|tS[russian+english])""
        
""ck"" """" """" ""(k|tsk[polish])""
        
""czy"" """" """" ""tSi""
""cze"" """" ""[bcdgkpstwzż]"" ""(tSe|tSF)""
""ciewicz"" """" """" ""(tsevitS|tSevitS)""
""siewicz"" """" """" ""(sevitS|SevitS)""
""ziewicz"" """" """" ""(zevitS|ZevitS)""
""riewicz"" """" """" ""rjevitS"" 
""diewicz"" """" """" ""djevitS"" 
""tiewicz"" """" """" ""tjevitS"" 
""iewicz"" """" """" ""evitS""
""ewicz"" """" """" ""evitS""
""owicz"" """" """" ""ovitS""
""icz"" """" """" ""itS""
""cz"" """" """" ""tS"" // Polish
    
""cia"" """" ""[bcdgkpstwzż]"" ""(tSB[polish]|tsB)""
""cia"" """" """" ""(tSa[polish]|tsa)"" 
""cią"" """" ""[bp]"" ""(tSom[polish]|tsom)""
""cią"" """" """" ""(tSon[polish]|tson)""
""cię"" """" ""[bp]"" ""(tSem[polish]|tsem)""
""cię"" """" """" ""(tSen[polish]|tsen)""
""cie"" """" ""[bcdgkpstwzż]"" ""(tSF[polish]|tsF)""
""cie"" """" """" ""(tSe[polish]|tse)""
""cio"" """" """" ""(tSo[polish]|tso)""
""ciu"" """" """" ""(tSu[polish]|tsu)""

""ci"" """" ""$"" ""(tsi[polish]|tSi[polish+romanian]|tS[romanian]|si)""
""ci"" """" """" ""(tsi[polish]|tSi[polish+romanian]|si)""
""ce"" """" ""[bcdgkpstwzż]"" ""(tsF[polish]|tSe[polish+romanian]|se)""
""ce"" """" """" ""(tSe[polish+romanian]|tse[polish]|se)""
""cy"" """" """" ""(si|tsi[polish])""
              
""ssz"" """" """" ""S"" // Polish
""sz"" """" """" ""S"" // Polish; actually could also be Hungarian /s/, disabled here 
    
""ssp"" """" """" ""(Sp[german]|sp)""
""sp"" """" """" ""(Sp[german]|sp)""
""sst"" """" """" ""(St[german]|st)""
""st"" """" """" ""(St[german]|st)""
""ss"" """" """" ""s"" 
    
""sia"" """" ""[bcdgkpstwzż]"" ""(SB[polish]|sB[polish]|sja)""
""sia"" """" """" ""(Sa[polish]|sja)""
""sią"" """" ""[bp]"" ""(Som[polish]|som)""
""sią"" """" """" ""(Son[polish]|son)""
""się"" """" ""[bp]"" ""(Sem[polish]|sem)""
""się"" """" """" ""(Sen[polish]|sen)""
""sie"" """" ""[bcdgkpstwzż]"" ""(SF[polish]|sF|zi[german])""
""sie"" """" """" ""(se|Se[polish]|zi[german])""
""sio"" """" """" ""(So[polish]|so)""
""siu"" """" """" ""(Su[polish]|sju)""
""si"" """" """" ""(Si[polish]|si|zi[german])""
""s"" """" ""[aeiouäöë]"" ""(s|z[german])""
        
""gue"" """" """" ""ge"" 
""gui"" """" """" ""gi"" 
""guy"" """" """" ""gi"" 
""gh"" """" ""[ei]"" ""(g[romanian]|gh)""
    
""gauz"" """" ""$"" ""haus"" 
""gaus"" """" ""$"" ""haus"" 
""gol'ts"" """" ""$"" ""holts"" 
""golts"" """" ""$"" ""holts"" 
""gol'tz"" """" ""$"" ""holts"" 
""goltz"" """" """" ""holts"" 
""gol'ts"" ""^"" """" ""holts"" 
""golts"" ""^"" """" ""holts"" 
""gol'tz"" ""^"" """" ""holts"" 
""goltz"" ""^"" """" ""holts"" 
""gendler"" """" ""$"" ""hendler"" 
""gejmer"" """" ""$"" ""hajmer"" 
""gejm"" """" ""$"" ""hajm"" 
""geymer"" """" ""$"" ""hajmer"" 
""geym"" """" ""$"" ""hajm"" 
""geimer"" """" ""$"" ""hajmer"" 
""geim"" """" ""$"" ""hajm"" 
""gof"" """" ""$"" ""hof"" 
    
""ger"" """" ""$"" ""ger"" 
""gen"" """" ""$"" ""gen"" 
""gin"" """" ""$"" ""gin"" 
    
""gie"" """" ""$"" ""(ge|gi[german]|ji[french])""
""gie"" """" """" ""ge"" 
""ge"" ""[yaeiou]"" """" ""(gE|xe[spanish]|dZe[english+romanian])""
""gi"" ""[yaeiou]"" """" ""(gI|xi[spanish]|dZi[english+romanian])""
""ge"" """" """" ""(gE|dZe[english+romanian]|hE[russian]|xe[spanish])""
""gi"" """" """" ""(gI|dZi[english+romanian]|hI[russian]|xi[spanish])""
""gy"" """" ""[aeouáéóúüöőű]"" ""(gi|dj[hungarian])""
""gy"" """" """" ""(gi|d[hungarian])""
""g"" ""[jyaeiou]"" ""[aouyei]"" ""g"" 
""g"" """" ""[aouei]"" ""(g|h[russian])""
              
""ej"" """" """" ""(aj|eZ[french+romanian]|ex[spanish])""
""ej"" """" """" ""aj""
    
""ly"" """" ""[au]"" ""l"" 
""li"" """" ""[au]"" ""l"" 
""lj"" """" ""[au]"" ""l"" 
""lio"" """" """" ""(lo|le[russian])""
""lyo"" """" """" ""(lo|le[russian])""
""ll"" """" """" ""(l|J[spanish])""
  
""j"" """" ""[aoeiuy]"" ""(j|dZ[english]|x[spanish]|Z[french+romanian])""
""j"" """" """" ""(j|x[spanish])""
                       
""pf"" """" """" ""(pf|p|f)"" 
""ph"" """" """" ""(ph|f)""
    
""qu"" """" """" ""(kv[german]|k)""
        
""rze"" ""t"" """" ""(Se[polish]|re)"" // polish
""rze"" """" """" ""(rze|rtsE[german]|Ze[polish]|re[polish]|rZe[polish])""
""rzy"" ""t"" """" ""(Si[polish]|ri)"" // polish
""rzy"" """" """" ""(Zi[polish]|ri[polish]|rZi)""
""rz"" ""t"" """" ""(S[polish]|r)"" // polish
""rz"" """" """" ""(rz|rts[german]|Z[polish]|r[polish]|rZ[polish])"" // polish
    
""tz"" """" ""$"" ""(ts|tS[english+german])""
""tz"" ""^"" """" ""(ts|tS[english+german])""
""tz"" """" """" ""(ts[english+german+russian]|tz)""
    
""zh"" """" """" ""(Z|zh[polish]|tsh[german])""
        
""zia"" """" ""[bcdgkpstwzż]"" ""(ZB[polish]|zB[polish]|zja)""
""zia"" """" """" ""(Za[polish]|zja)""
""zią"" """" ""[bp]"" ""(Zom[polish]|zom)""
""zią"" """" """" ""(Zon[polish]|zon)""
""zię"" """" ""[bp]"" ""(Zem[polish]|zem)""
""zię"" """" """" ""(Zen[polish]|zen)""
""zie"" """" ""[bcdgkpstwzż]"" ""(ZF[polish]|zF[polish]|ze|tsi[german])""
""zie"" """" """" ""(ze|Ze[polish]|tsi[german])""
""zio"" """" """" ""(Zo[polish]|zo)""
""ziu"" """" """" ""(Zu[polish]|zju)""
""zi"" """" """" ""(Zi[polish]|zi|tsi[german])""
            
""thal"" """" ""$"" ""tal"" 
""th"" ""^"" """" ""t"" 
""th"" """" ""[aeiou]"" ""(t[german]|th)""
""th"" """" """" ""t"" // german 
""vogel"" """" """" ""(vogel|fogel[german])""
""v"" ""^"" """" ""(v|f[german])""
        
""h"" ""[aeiouyäöü]"" """" """" //german
""h"" """" """" ""(h|x[romanian+polish])""
""h"" ""^"" """" ""(h|H[english+german])"" // H can be exact ""h"" or approximate ""kh""
    
 // VOWELS  
""yi"" ""^"" """" ""i""
    
    //""e"" """" ""$"" ""(e|)""  // French & English rule disabled except for final -ine
""e"" ""in"" ""$"" ""(e|[french])""
    
""ii"" """" ""$"" ""i"" // russian
""iy"" """" ""$"" ""i"" // russian
""yy"" """" ""$"" ""i"" // russian
""yi"" """" ""$"" ""i"" // russian
""yj"" """" ""$"" ""i"" // russian
""ij"" """" ""$"" ""i"" // russian
    
""aue"" """" """" ""aue"" 
""oue"" """" """" ""oue"" 
    
""au"" """" """" ""(au|o[french])""
""ou"" """" """" ""(ou|u[french])""
        
""ue"" """" """" ""(Q|uje[russian])""
""ae"" """" """" ""(Y[german]|aje[russian]|ae)""
""oe"" """" """" ""(Y[german]|oje[russian]|oe)""
""ee"" """" """" ""(i[english]|aje[russian]|e)""
    
""ei"" """" """" ""aj""
""ey"" """" """" ""aj""
""eu"" """" """" ""(aj[german]|oj[german]|eu)""
    
""i"" ""[aou]"" """" ""j""
""y"" ""[aou]"" """" ""j""
    
""ie"" """" ""[bcdgkpstwzż]"" ""(i[german]|e[polish]|ije[russian]|je)""
""ie"" """" """" ""(i[german]|e[polish]|ije[russian]|je)""
""ye"" """" """" ""(je|ije[russian])""
         
""i"" """" ""[au]"" ""j""
""y"" """" ""[au]"" ""j""
""io"" """" """" ""(jo|e[russian])""
""yo"" """" """" ""(jo|e[russian])""
            
""ea"" """" """" ""(ea|ja[romanian])""
""e"" ""^"" """" ""(e|je[russian])""
""oo"" """" """" ""(u[english]|o)""
""uu"" """" """" ""u"" 
    
// LANGUAGE SPECIFIC CHARACTERS 
""ć"" """" """" ""(tS[polish]|ts)""  // polish
""ł"" """" """" ""l""  // polish
""ń"" """" """" ""n""  // polish
""ñ"" """" """" ""(n|nj[spanish])""
""ś"" """" """" ""(S[polish]|s)"" // polish
""ş"" """" """" ""S""  // romanian
""ţ"" """" """" ""ts""  // romanian
""ż"" """" """" ""Z""  // polish
""ź"" """" """" ""(Z[polish]|z)"" // polish

""où"" """" """" ""u"" // french
    
""ą"" """" ""[bp]"" ""om""  // polish
""ą"" """" """" ""on""  // polish
""ä"" """" """" ""(Y|e)"" // german
""á"" """" """" ""a"" // hungarian
""ă"" """" """" ""(e[romanian]|a)"" //romanian
""à"" """" """" ""a""  // french
""â"" """" """" ""a"" //french+romanian
""é"" """" """" ""e"" 
""è"" """" """" ""e"" // french
""ê"" """" """" ""e"" // french
""ę"" """" ""[bp]"" ""em""  // polish
""ę"" """" """" ""en""  // polish
""í"" """" """" ""i"" 
""î"" """" """" ""i"" 
""ö"" """" """" ""Y""
""ő"" """" """" ""Y"" // hungarian
""ó"" """" """" ""(u[polish]|o)""
""ű"" """" """" ""Q"" 
""ü"" """" """" ""Q""
""ú"" """" """" ""u"" 
""ű"" """" """" ""Q"" // hungarian
  
""ß"" """" """" ""s""  // german
""'"" """" """" """" 
""\"""" """" """" """"
       
""a"" """" ""[bcdgkpstwzż]"" ""(A|B[polish])""
""e"" """" ""[bcdgkpstwzż]"" ""(E|F[polish])""
""o"" """" ""[bcćdgklłmnńrsśtwzźż]"" ""(O|P[polish])""
  
  // LATIN ALPHABET
""a"" """" """" ""A""
""b"" """" """" ""b""
""c"" """" """" ""(k|ts[polish])""
""d"" """" """" ""d""
""e"" """" """" ""E""  
""f"" """" """" ""f""
""g"" """" """" ""g""
""h"" """" """" ""h"" 
""i"" """" """" ""I""
""j"" """" """" ""j""
""k"" """" """" ""k""
""l"" """" """" ""l""
""m"" """" """" ""m""
""n"" """" """" ""n""
""o"" """" """" ""O""
""p"" """" """" ""p""
""q"" """" """" ""k""
""r"" """" """" ""r""
""s"" """" """" ""s""
""t"" """" """" ""t""
""u"" """" """" ""U""
""v"" """" """" ""v""
""w"" """" """" ""v"" // English disabled
""x"" """" """" ""ks"" 
""y"" """" """" ""i""
""z"" """" """" ""(ts[german]|z)""
"%string.
Definition bm_embedded_files_f_gen_approx_any : ustr := Eval vm_compute in str "/*
 * Licensed to the Apache Software Foundation (ASF) under one or more
 * contributor license agreements.  See the NOTICE file distributed with
 * this work for additional information regarding copyright ownership.
 * The ASF licenses this file to You under the Apache License, Version 2.0
 * (the ""License""); you may not use this file except in compliance with
 * the License.  You may obtain a copy of the License at
 *
 *      http://www.apache.org/licenses/LICENSE-2.0
 *
 * Unless required by applicable law or agreed to in writing, software
 * distributed under the License is distributed on an ""AS IS"" BASIS,
 * WITHOUT WARRANTIES OR CONDITIONS OF ANY KIND, either express or implied.
 * See the License for the specific language governing permissions and
 * limitations under the License.
 */

// GENERIC
// A, E, I, O, P, U should create variants, but a, e, i, o, u should not create any new variant
// Q = ü ; Y = ä = ö
// EE = final ""e"" (english or french)

// VOWELS
    // ""ALL"" DIPHTHONGS are interchangeable BETWEEN THEM and with monophthongs of which they are composed (""D"" means ""diphthong"")
    //  {a,o} are totally interchangeable if non-stressed; in German ""a/o"" can actually be from ""ä/ö"" (that are equivalent to ""e"")
    //  {i,e} are interchangeable if non-stressed, while in German ""u"" can actually be from ""ü"" (that is equivalent to ""i"")

""mb"" """" """" ""(mb|b[greeklatin])""
""mp"" """" """" ""(mp|b[greeklatin])""
""ng"" """" """" ""(ng|g[greeklatin])""

""B"" """" ""[fktSs]"" ""(p|f[spanish])"" 
""B"" """" ""p"" """" 
""B"" """" ""$"" ""(p|f[spanish])"" 
""V"" """" ""[pktSs]"" ""(f|p[spanish])"" 
""V"" """" ""f"" """" 
""V"" """" ""$"" ""(f|p[spanish])"" 
""B"" """" """" ""(b|v[spanish])""
""V"" """" """" ""(v|b[spanish])""
    
    // French word-final and word-part-final letters
""t"" """" ""$"" ""(t|[french])""
""g"" ""n"" ""$"" ""(g|[french])""
""k"" ""n"" ""$"" ""(k|[french])""
""p"" """" ""$"" ""(p|[french])""
""r"" ""[Ee]"" ""$"" ""(r|[french])""
""s"" """" ""$"" ""(s|[french])""
""t"" ""[aeiouAEIOU]"" ""[^aeiouAEIOU]"" ""(t|[french])"" // Petitjean
""s"" ""[aeiouAEIOU]"" ""[^aeiouAEIOU]"" ""(s|[french])"" // Groslot, Grosleau
    //array(""p"" ""[aeiouAEIOU]"" ""[^aeiouAEIOU]"" ""(p|[french])"" 
    
""I"" ""[aeiouAEIBFOUQY]"" """" ""i""
""I"" """" ""[^aeiouAEBFIOU]e"" ""(Q[german]|i|D[english])""  // ""line""
""I"" """" ""$"" ""i""
""I"" """" ""[^k]$"" ""i""
""Ik"" ""[lr]"" ""$"" ""(ik|Qk[german])""
""Ik"" """" ""$"" ""ik""
""sIts"" """" ""$"" ""(sits|sQts[german])""
""Its"" """" ""$"" ""its""
""I"" """" """" ""(Q[german]|i)""
   
""lEE"" ""[bdfgkmnprsStvzZ]"" """" ""(li|il[english])""  // Apple = Appel
""rEE"" ""[bdfgkmnprsStvzZ]"" """" ""(ri|ir[english])""
""lE"" ""[bdfgkmnprsStvzZ]"" """" ""(li|il[english]|lY[german])""  // Applebaum < Appelbaum
""rE"" ""[bdfgkmnprsStvzZ]"" """" ""(ri|ir[english]|rY[german])""
    
""EE"" """" """" ""(i|)"" 
""ea"" """" """" ""(D|a|i)""
    
""au"" """" """" ""(D|a|u)""
""ou"" """" """" ""(D|o|u)""
""eu"" """" """" ""(D|e|u)""
    
""ai"" """" """" ""(D|a|i)""
""Ai"" """" """" ""(D|a|i)""
""oi"" """" """" ""(D|o|i)""
""Oi"" """" """" ""(D|o|i)""
""ui"" """" """" ""(D|u|i)""
""Ui"" """" """" ""(D|u|i)""
""ei"" """" """" ""(D|i)""
""Ei"" """" """" ""(D|i)""
    
""iA"" """" ""$"" ""(ia|io)"" 
""iA"" """" """" ""(ia|io|iY[german])""
""A"" """" ""[^aeiouAEBFIOU]e"" ""(a|o|Y[german]|D[english])"" // ""plane""
    
    
""E"" ""i[^aeiouAEIOU]"" """" ""(i|Y[german]|[english])"" // Wineberg (vineberg/vajneberg) --> vajnberg
""E"" ""a[^aeiouAEIOU]"" """" ""(i|Y[german]|[english])"" //  Shaneberg (shaneberg/shejneberg) --> shejnberg
    
""E"" """" ""[fklmnprst]$"" ""i""
""E"" """" ""ts$"" ""i""
""E"" """" ""$"" ""i""
""E"" ""[DaoiuAOIUQY]"" """" ""i""
""E"" """" ""[aoAOQY]"" ""i""
""E"" """" """" ""(i|Y[german])""
        
""P"" """" """" ""(o|u)"" 
    
""O"" """" ""[fklmnprstv]$"" ""o""
""O"" """" ""ts$"" ""o""
""O"" """" ""$"" ""o""
""O"" ""[oeiuQY]"" """" ""o""
""O"" """" """" ""(o|Y[german])""
""O"" """" """" ""o""
    
""A"" """" ""[fklmnprst]$"" ""(a|o)""
""A"" """" ""ts$"" ""(a|o)""
""A"" """" ""$"" ""(a|o)""
""A"" ""[oeiuQY]"" """" ""(a|o)""
""A"" """" """" ""(a|o|Y[german])""
""A"" """" """" ""(a|o)""

""U"" """" ""$"" ""u""
""U"" ""[DoiuQY]"" """" ""u""
""U"" """" ""[^k]$"" ""u""
""Uk"" ""[lr]"" ""$"" ""(uk|Qk[german])""
""Uk"" """" ""$"" ""uk""
""sUts"" """" ""$"" ""(suts|sQts[german])""
""Uts"" """" ""$"" ""uts""
""U"" """" """" ""(u|Q[german])""
""U"" """" """" ""u""

""e"" """" ""[fklmnprstv]$"" ""i""
""e"" """" ""ts$"" ""i""
""e"" """" ""$"" ""i""
""e"" ""[DaoiuAOIUQY]"" """" ""i""
""e"" """" ""[aoAOQY]"" ""i""
""e"" """" """" ""(i|Y[german])""
        
""a"" """" """" ""(a|o)""
"%string.
Definition bm_embedded_files_f_gen_approx_common : ustr := Eval vm_compute in str "/*
 * Licensed to the Apache Software Foundation (ASF) under one or more
 * contributor license agreements.  See the NOTICE file distributed with
 * this work for additional information regarding copyright ownership.
 * The ASF licenses this file to You under the Apache License, Version 2.0
 * (the ""License""); you may not use this file except in compliance with
 * the License.  You may obtain a copy of the License at
 *
 *      http://www.apache.org/licenses/LICENSE-2.0
 *
 * Unless required by applicable law or agreed to in writing, software
 * distributed under the License is distributed on an ""AS IS"" BASIS,
 * WITHOUT WARRANTIES OR CONDITIONS OF ANY KIND, either express or implied.
 * See the License for the specific language governing permissions and
 * limitations under the License.
 */

// GENERIC

#include gen_exact_approx_common

// DUTCH 
""van"" ""^"" ""[bp]"" ""(vam|)"" 
""van"" ""^"" """" ""(van|)"" 

// REGRESSIVE ASSIMILATION OF CONSONANTS
""n"" """" ""[bp]"" ""m"" 
        
// PECULIARITY OF ""h"" 
""h"" """" """" """" 
""H"" """" """" ""(x|)"" 

// ""e"" and ""i"" ARE TO BE OMITTED BEFORE (SYLLABIC) n & l: Halperin=Halpern; Frankel = Frankl, Finkelstein = Finklstein
// but Andersen & Anderson should match
""sen"" ""[rmnl]"" ""$"" ""(zn|zon)""
""sen"" """" ""$"" ""(sn|son)""
""sEn"" ""[rmnl]"" ""$"" ""(zn|zon)""
""sEn"" """" ""$"" ""(sn|son)""
            
""e"" ""[BbdfgklmnprsStvzZ]"" ""[ln]$"" """"
""i"" ""[BbdfgklmnprsStvzZ]"" ""[ln]$"" """"
""E"" ""[BbdfgklmnprsStvzZ]"" ""[ln]$"" """"
""I"" ""[BbdfgklmnprsStvzZ]"" ""[ln]$"" """"
""Q"" ""[BbdfgklmnprsStvzZ]"" ""[ln]$"" """"
""Y"" ""[BbdfgklmnprsStvzZ]"" ""[ln]$"" """"

""e"" ""[BbdfgklmnprsStvzZ]"" ""[ln][BbdfgklmnprsStvzZ]"" """"
""i"" ""[BbdfgklmnprsStvzZ]"" ""[ln][BbdfgklmnprsStvzZ]"" """"
""E"" ""[BbdfgklmnprsStvzZ]"" ""[ln][BbdfgklmnprsStvzZ]"" """"
""I"" ""[BbdfgklmnprsStvzZ]"" ""[ln][BbdfgklmnprsStvzZ]"" """"
""Q"" ""[BbdfgklmnprsStvzZ]"" ""[ln][BbdfgklmnprsStvzZ]"" """"
""Y"" ""[BbdfgklmnprsStvzZ]"" ""[ln][BbdfgklmnprsStvzZ]"" """"

""lEs"" """" """" ""(lEs|lz)""  // Applebaum < Appelbaum (English + blend English-something forms as Finklestein)
""lE"" ""[bdfgkmnprStvzZ]"" """" ""(lE|l)""  // Applebaum < Appelbaum (English + blend English-something forms as Finklestein)

// SIMPLIFICATION: (TRIPHTHONGS & DIPHTHONGS) -> ONE GENERIC DIPHTHONG ""D""
""aue"" """" """" ""D""
""oue"" """" """" ""D""
    
""AvE"" """" """" ""(D|AvE)""
""Ave"" """" """" ""(D|Ave)""
""avE"" """" """" ""(D|avE)""
""ave"" """" """" ""(D|ave)""
    
""OvE"" """" """" ""(D|OvE)""
""Ove"" """" """" ""(D|Ove)""
""ovE"" """" """" ""(D|ovE)""
""ove"" """" """" ""(D|ove)""
    
""ea"" """" """" ""(D|ea)""
""EA"" """" """" ""(D|EA)""
""Ea"" """" """" ""(D|Ea)""
""eA"" """" """" ""(D|eA)""
             
""aji"" """" """" ""D""
""ajI"" """" """" ""D""
""aje"" """" """" ""D""
""ajE"" """" """" ""D""
    
""Aji"" """" """" ""D""
""AjI"" """" """" ""D""
""Aje"" """" """" ""D""
""AjE"" """" """" ""D""
    
""oji"" """" """" ""D""
""ojI"" """" """" ""D""
""oje"" """" """" ""D""
""ojE"" """" """" ""D""
    
""Oji"" """" """" ""D""
""OjI"" """" """" ""D""
""Oje"" """" """" ""D""
""OjE"" """" """" ""D""
    
""eji"" """" """" ""D""
""ejI"" """" """" ""D""
""eje"" """" """" ""D""
""ejE"" """" """" ""D""
    
""Eji"" """" """" ""D""
""EjI"" """" """" ""D""
""Eje"" """" """" ""D""
""EjE"" """" """" ""D""
    
""uji"" """" """" ""D""
""ujI"" """" """" ""D""
""uje"" """" """" ""D""
""ujE"" """" """" ""D""
    
""Uji"" """" """" ""D""
""UjI"" """" """" ""D""
""Uje"" """" """" ""D""
""UjE"" """" """" ""D""
        
""iji"" """" """" ""D""
""ijI"" """" """" ""D""
""ije"" """" """" ""D""
""ijE"" """" """" ""D""
    
""Iji"" """" """" ""D""
""IjI"" """" """" ""D""
""Ije"" """" """" ""D""
""IjE"" """" """" ""D""
                         
""aja"" """" """" ""D""
""ajA"" """" """" ""D""
""ajo"" """" """" ""D""
""ajO"" """" """" ""D""
""aju"" """" """" ""D""
""ajU"" """" """" ""D""
    
""Aja"" """" """" ""D""
""AjA"" """" """" ""D""
""Ajo"" """" """" ""D""
""AjO"" """" """" ""D""
""Aju"" """" """" ""D""
""AjU"" """" """" ""D""
    
""oja"" """" """" ""D""
""ojA"" """" """" ""D""
""ojo"" """" """" ""D""
""ojO"" """" """" ""D""
""Aju"" """" """" ""D""
""AjU"" """" """" ""D""
    
""Oja"" """" """" ""D""
""OjA"" """" """" ""D""
""Ojo"" """" """" ""D""
""OjO"" """" """" ""D""
""Aju"" """" """" ""D""
""AjU"" """" """" ""D""
    
""eja"" """" """" ""D""
""ejA"" """" """" ""D""
""ejo"" """" """" ""D""
""ejO"" """" """" ""D""
""Aju"" """" """" ""D""
""AjU"" """" """" ""D""
    
""Eja"" """" """" ""D""
""EjA"" """" """" ""D""
""Ejo"" """" """" ""D""
""EjO"" """" """" ""D""
""Aju"" """" """" ""D""
""AjU"" """" """" ""D""
    
""uja"" """" """" ""D""
""ujA"" """" """" ""D""
""ujo"" """" """" ""D""
""ujO"" """" """" ""D""
""Aju"" """" """" ""D""
""AjU"" """" """" ""D""
        
""Uja"" """" """" ""D""
""UjA"" """" """" ""D""
""Ujo"" """" """" ""D""
""UjO"" """" """" ""D""
""Aju"" """" """" ""D""
""AjU"" """" """" ""D""
        
""ija"" """" """" ""D""
""ijA"" """" """" ""D""
""ijo"" """" """" ""D""
""ijO"" """" """" ""D""
""Aju"" """" """" ""D""
""AjU"" """" """" ""D""
    
""Ija"" """" """" ""D""
""IjA"" """" """" ""D""
""Ijo"" """" """" ""D""
""IjO"" """" """" ""D""                         
""Aju"" """" """" ""D""
""AjU"" """" """" ""D""
                         
""j"" """" """" ""i""                         
                         
// lander = lender = länder 
""lYndEr"" """" ""$"" ""lYnder"" 
""lander"" """" ""$"" ""lYnder"" 
""lAndEr"" """" ""$"" ""lYnder"" 
""lAnder"" """" ""$"" ""lYnder"" 
""landEr"" """" ""$"" ""lYnder"" 
""lender"" """" ""$"" ""lYnder"" 
""lEndEr"" """" ""$"" ""lYnder"" 
""lendEr"" """" ""$"" ""lYnder"" 
""lEnder"" """" ""$"" ""lYnder"" 

// burg = berg
""burk"" """" ""$"" ""(burk|berk)"" 
""bUrk"" """" ""$"" ""(burk|berk)""
""burg"" """" ""$"" ""(burk|berk)""
""bUrg"" """" ""$"" ""(burk|berk)""
""Burk"" """" ""$"" ""(burk|berk)""
""BUrk"" """" ""$"" ""(burk|berk)""
""Burg"" """" ""$"" ""(burk|berk)""
""BUrg"" """" ""$"" ""(burk|berk)""

// CONSONANTS {z & Z; s & S} are approximately interchangeable
""s"" """" ""[rmnl]"" ""z""
""S"" """" ""[rmnl]"" ""z""
""s"" ""[rmnl]"" """" ""z""
""S"" ""[rmnl]"" """" ""z"" 
    
""dS"" """" ""$"" ""S""
""dZ"" """" ""$"" ""S""
""Z"" """" ""$"" ""S""
""S"" """" ""$"" ""(S|s)""
""z"" """" ""$"" ""(S|s)""
    
""S"" """" """" ""s""
""dZ"" """" """" ""z""
""Z"" """" """" ""z""
"%string.
Definition bm_embedded_files_f_gen_exact_any : ustr := Eval vm_compute in str "/*
 * Licensed to the Apache Software Foundation (ASF) under one or more
 * contributor license agreements.  See the NOTICE file distributed with
 * this work for additional information regarding copyright ownership.
 * The ASF licenses this file to You under the Apache License, Version 2.0
 * (the ""License""); you may not use this file except in compliance with
 * the License.  You may obtain a copy of the License at
 *
 *      http://www.apache.org/licenses/LICENSE-2.0
 *
 * Unless required by applicable law or agreed to in writing, software
 * distributed under the License is distributed on an ""AS IS"" BASIS,
 * WITHOUT WARRANTIES OR CONDITIONS OF ANY KIND, either express or implied.
 * See the License for the specific language governing permissions and
 * limitations under the License.
 */

// GENERAL
   // A, E, I, O, P, U should create variants, 
   // EE = final ""e"" (english & french)
   // V, B from Spanish
   // but a, e, i, o, u should not create any new variant
""EE"" """" ""$"" ""e""
    
""A"" """" """" ""a""
""E"" """" """" ""e""
""I"" """" """" ""i""
""O"" """" """" ""o""
""P"" """" """" ""o""
""U"" """" """" ""u""

""B"" """" ""[fktSs]"" ""p"" 
""B"" """" ""p"" """" 
""B"" """" ""$"" ""p"" 
""V"" """" ""[pktSs]"" ""f"" 
""V"" """" ""f"" """" 
""V"" """" ""$"" ""f"" 

""B"" """" """" ""b""
""V"" """" """" ""v""
"%string.
Definition bm_embedded_files_f_gen_exact_approx_common : ustr := Eval vm_compute in str "/*
 * Licensed to the Apache Software Foundation (ASF) under one or more
 * contributor license agreements.  See the NOTICE file distributed with
 * this work for additional information regarding copyright ownership.
 * The ASF licenses this file to You under the Apache License, Version 2.0
 * (the ""License""); you may not use this file except in compliance with
 * the License.  You may obtain a copy of the License at
 *
 *      http://www.apache.org/licenses/LICENSE-2.0
 *
 * Unless required by applicable law or agreed to in writing, software
 * distributed under the License is distributed on an ""AS IS"" BASIS,
 * WITHOUT WARRANTIES OR CONDITIONS OF ANY KIND, either express or implied.
 * See the License for the specific language governing permissions and
 * limitations under the License.
 */

// GENERAL
""h"" """" ""$"" """"

// VOICED - UNVOICED CONSONANTS
""b"" """" ""[fktSs]"" ""p""
""b"" """" ""p"" """"
""b"" """" ""$"" ""p""
""p"" """" ""[vgdZz]"" ""b"" // Ashk: ""v"" excluded (everythere)
""p"" """" ""b"" """"
    
""v"" """" ""[pktSs]"" ""f""
""v"" """" ""f"" """"
""v"" """" ""$"" ""f""
""f"" """" ""[vbgdZz]"" ""v""
""f"" """" ""v"" """"
    
""g"" """" ""[pftSs]"" ""k""
""g"" """" ""k"" """"
""g"" """" ""$"" ""k""
""k"" """" ""[vbdZz]"" ""g""
""k"" """" ""g"" """"
    
""d"" """" ""[pfkSs]"" ""t""
""d"" """" ""t"" """"
""d"" """" ""$"" ""t""
""t"" """" ""[vbgZz]"" ""d""
""t"" """" ""d"" """"
    
""s"" """" ""dZ"" """"
""s"" """" ""tS"" """"
    
""z"" """" ""[pfkSt]"" ""s""
""z"" """" ""[sSzZ]"" """"
""s"" """" ""[sSzZ]"" """"
""Z"" """" ""[sSzZ]"" """"
""S"" """" ""[sSzZ]"" """"
       
// SIMPLIFICATION OF CONSONANT CLUSTERS
""jnm"" """" """" ""jm""

// DOUBLE --> SINGLE
""ji"" ""^"" """" ""i""
""jI"" ""^"" """" ""I""
        
""a"" """" ""[aA]"" """" 
""a"" ""A"" """" """" 
""A"" """" ""A"" """"
       
""b"" """" ""b"" """"
""d"" """" ""d"" """"
""f"" """" ""f"" """"
""g"" """" ""g"" """"
""j"" """" ""j"" """"
""k"" """" ""k"" """"
""l"" """" ""l"" """"
""m"" """" ""m"" """"
""n"" """" ""n"" """"
""p"" """" ""p"" """"
""r"" """" ""r"" """"
""t"" """" ""t"" """"
""v"" """" ""v"" """"
""z"" """" ""z"" """"
"%string.
Definition bm_embedded_files_f_gen_exact_common : ustr := Eval vm_compute in str "/*
 * Licensed to the Apache Software Foundation (ASF) under one or more
 * contributor license agreements.  See the NOTICE file distributed with
 * this work for additional information regarding copyright ownership.
 * The ASF licenses this file to You under the Apache License, Version 2.0
 * (the ""License""); you may not use this file except in compliance with
 * the License.  You may obtain a copy of the License at
 *
 *      http://www.apache.org/licenses/LICENSE-2.0
 *
 * Unless required by applicable law or agreed to in writing, software
 * distributed under the License is distributed on an ""AS IS"" BASIS,
 * WITHOUT WARRANTIES OR CONDITIONS OF ANY KIND, either express or implied.
 * See the License for the specific language governing permissions and
 * limitations under the License.
 */

#include gen_exact_approx_common

""H"" """" """" """"
 
// VOICED - UNVOICED CONSONANTS
""s"" ""[^t]"" ""[bgZd]"" ""z""
""Z"" """" ""[pfkst]"" ""S""
""Z"" """" ""$"" ""S""
""S"" """" ""[bgzd]"" ""Z""
""z"" """" ""$"" ""s""
    
""ji"" ""[aAoOeEiIuU]"" """" ""j""
""jI"" ""[aAoOeEiIuU]"" """" ""j""
""je"" ""[aAoOeEiIuU]"" """" ""j""
""jE"" ""[aAoOeEiIuU]"" """" ""j""
"%string.
Definition bm_embedded_files_f_gen_rules_any : ustr := Eval vm_compute in str "/*
 * Licensed to the Apache Software Foundation (ASF) under one or more
 * contributor license agreements.  See the NOTICE file distributed with
 * this work for additional information regarding copyright ownership.
 * The ASF licenses this file to You under the Apache License, Version 2.0
 * (the ""License""); you may not use this file except in compliance with
 * the License.  You may obtain a copy of the License at
 *
 *      http://www.apache.org/licenses/LICENSE-2.0
 *
 * Unless required by applicable law or agreed to in writing, software
 * distributed under the License is distributed on an ""AS IS"" BASIS,
 * WITHOUT WARRANTIES OR CONDITIONS OF ANY KIND, either express or implied.
 * See the License for the specific language governing permissions and
 * limitations under the License.
 */

  // format of each entry rule in the table
  //   (pattern, left context, right context, phonetic)
  // where
  //   pattern is a sequence of characters that might appear in the word to be transliterated
  //   left context is the context that precedes the pattern
  //   right context is the context that follows the pattern
  //   phonetic is the result that this rule generates
  //
  // note that both left context and right context can be regular expressions
  // ex: left context of ^ would mean start of word
  //     left context of [aeiouy] means following a vowel
  //     right context of [^aeiouy] means preceding a consonant
  //     right context of e$ means preceding a final e

//GENERIC

// CONVERTING FEMININE TO MASCULINE
""yna"" """" ""$"" ""(in[russian]|ina)"" 
""ina"" """" ""$"" ""(in[russian]|ina)"" 
""liova"" """" ""$"" ""(lova|lof[russian]|lef[russian])""
""lova"" """" ""$"" ""(lova|lof[russian]|lef[russian]|l[czech]|el[czech])""   
""kova"" """" ""$"" ""(kova|kof[russian]|k[czech]|ek[czech])""   
""ova"" """" ""$"" ""(ova|of[russian]|[czech])""   
""ová"" """" ""$"" ""(ova|[czech])""   
""eva"" """" ""$"" ""(eva|ef[russian])""   
""aia"" """" ""$"" ""(aja|i[russian])""
""aja"" """" ""$"" ""(aja|i[russian])"" 
""aya"" """" ""$"" ""(aja|i[russian])"" 
    
""lowa"" """" ""$"" ""(lova|lof[polish]|l[polish]|el[polish])""   
""kowa"" """" ""$"" ""(kova|kof[polish]|k[polish]|ek[polish])""   
""owa"" """" ""$"" ""(ova|of[polish]|)""   
""lowna"" """" ""$"" ""(lovna|levna|l[polish]|el[polish])"" 
""kowna"" """" ""$"" ""(kovna|k[polish]|ek[polish])""  
""owna"" """" ""$"" ""(ovna|[polish])""  
""lówna"" """" ""$"" ""(l|el)""  // polish
""kówna"" """" ""$"" ""(k|ek)""  // polish
""ówna"" """" ""$"" """"         // polish
""á"" """" ""$"" ""(a|i[czech])"" 
""a"" """" ""$"" ""(a|i[polish+czech])"" 
    
// CONSONANTS
""pf"" """" """" ""(pf|p|f)"" 
""que"" """" ""$"" ""(k[french]|ke|kve)""
""qu"" """" """" ""(kv|k)"" 
 
""m"" """" ""[bfpv]"" ""(m|n)"" 
""m"" ""[aeiouy]"" ""[aeiouy]"" ""m""  
""m"" ""[aeiouy]"" """" ""(m|n[french+portuguese])""  // nasal
 
""ly"" """" ""[au]"" ""l"" 
""li"" """" ""[au]"" ""l"" 
""lio"" """" """" ""(lo|le[russian])"" 
""lyo"" """" """" ""(lo|le[russian])"" 
  //array(""ll"" """" """" ""(l|J[spanish])""  // Disabled Argentinian rule
""lt"" ""u"" ""$"" ""(lt|[french])"" 
    
""v"" ""^"" """" ""(v|f[german]|b[spanish])"" 

""ex"" """" ""[aáuiíoóeéêy]"" ""(ez[portuguese]|eS[portuguese]|eks|egz)"" 
""ex"" """" ""[cs]"" ""(e[portuguese]|ek)"" 
""x"" ""u"" ""$"" ""(ks|[french])"" 
   
""ck"" """" """" ""(k|tsk[polish+czech])""
""cz"" """" """" ""(tS|tsz[czech])"" // Polish
   
    //Processing of ""h"" in various combinations         
""rh"" ""^"" """" ""r""
""dh"" ""^"" """" ""d""
""bh"" ""^"" """" ""b""
     
""ph"" """" """" ""(ph|f)""
""kh"" """" """" ""(x[russian+english]|kh)""  
  
""lh"" """" """" ""(lh|l[portuguese])"" 
""nh"" """" """" ""(nh|nj[portuguese])"" 
        
""ssch"" """" """" ""S""      // german
""chsch"" """" """" ""xS""    // german
""tsch"" """" """" ""tS""     // german 
    
    ///""desch"" ""^"" """" ""deS"" 
    ///""desh"" ""^"" """" ""(dES|de[french])"" 
    ///""des"" ""^"" ""[^aeiouy]"" ""(dEs|de[french])"" 
    
""sch"" ""[aeiouy]"" ""[ei]"" ""(S|StS[russian]|sk[romanian+italian])"" 
""sch"" ""[aeiouy]"" """" ""(S|StS[russian])"" 
""sch"" """" ""[ei]"" ""(sk[romanian+italian]|S|StS[russian])""
""sch"" """" """" ""(S|StS[russian])""
""ssh"" """" """" ""S"" 
    
""sh"" """" ""[äöü]"" ""sh""      // german 
""sh"" """" ""[aeiou]"" ""(S[russian+english]|sh)""
""sh"" """" """" ""S"" 
 
""zh"" """" """" ""(Z[english+russian]|zh|tsh[german])"" 
    
""chs"" """" """" ""(ks[german]|xs|tSs[russian+english])"" 
""ch"" """" ""[ei]"" ""(x|tS[spanish+english+russian]|k[romanian+italian]|S[portuguese+french])"" 
""ch"" """" """" ""(x|tS[spanish+english+russian]|S[portuguese+french])""  
 
""th"" ""^"" """" ""t""     // english+german+greeklatin
""th"" """" ""[äöüaeiou]"" ""(t[english+german+greeklatin]|th)""
""th"" """" """" ""t""  // english+german+greeklatin
   
""gh"" """" ""[ei]"" ""(g[romanian+italian+greeklatin]|gh)"" 
          
""ouh"" """" ""[aioe]"" ""(v[french]|uh)""
""uh"" """" ""[aioe]"" ""(v|uh)""
""h"" ""."" ""$"" """" // match h at the end of words, but not as a single letter: difference to the original version
""h"" ""[aeiouyäöü]"" """" """"  // german
""h"" ""^"" """" ""(h|x[romanian+greeklatin]|H[english+romanian+polish+french+portuguese+italian+spanish])"" 
         
    //Processing of ""ci"" ""ce"" & ""cy""
""cia"" """" """" ""(tSa[polish]|tsa)""  // Polish
""cią"" """" ""[bp]"" ""(tSom|tsom)""     // Polish
""cią"" """" """" ""(tSon[polish]|tson)"" // Polish
""cię"" """" ""[bp]"" ""(tSem[polish]|tsem)"" // Polish
""cię"" """" """" ""(tSen[polish]|tsen)"" // Polish
""cie"" """" """" ""(tSe[polish]|tse)""  // Polish
""cio"" """" """" ""(tSo[polish]|tso)""  // Polish
""ciu"" """" """" ""(tSu[polish]|tsu)"" // Polish

""sci"" """" ""$"" ""(Si[italian]|stsi[polish+czech]|dZi[turkish]|tSi[polish+romanian]|tS[romanian]|si)"" 
""sc"" """" ""[ei]"" ""(S[italian]|sts[polish+czech]|dZ[turkish]|tS[polish+romanian]|s)"" 
""ci"" """" ""$"" ""(tsi[polish+czech]|dZi[turkish]|tSi[polish+romanian]|tS[romanian]|si)"" 
""cy"" """" """" ""(si|tsi[polish])"" 
""c"" """" ""[ei]"" ""(ts[polish+czech]|dZ[turkish]|tS[polish+romanian]|k[greeklatin]|s)"" 
      
    //Processing of ""s""      
""sç"" """" ""[aeiou]"" ""(s|stS[turkish])""
""ssz"" """" """" ""S"" // polish
""sz"" ""^"" """" ""(S|s[hungarian])"" // polish
""sz"" """" ""$"" ""(S|s[hungarian])"" // polish
""sz"" """" """" ""(S|s[hungarian]|sts[german])"" // polish
""ssp"" """" """" ""(Sp[german]|sp)""
""sp"" """" """" ""(Sp[german]|sp)""
""sst"" """" """" ""(St[german]|st)""
""st"" """" """" ""(St[german]|st)"" 
""ss"" """" """" ""s""
""sj"" ""^"" """" ""S"" // dutch
""sj"" """" ""$"" ""S"" // dutch
""sj"" """" """" ""(sj|S[dutch]|sx[spanish]|sZ[romanian+turkish])"" 
  
""sia"" """" """" ""(Sa[polish]|sa[polish]|sja)"" 
""sią"" """" ""[bp]"" ""(Som[polish]|som)"" // polish
""sią"" """" """" ""(Son[polish]|son)"" // polish
""się"" """" ""[bp]"" ""(Sem[polish]|sem)"" // polish
""się"" """" """" ""(Sen[polish]|sen)"" // polish
""sie"" """" """" ""(se|sje|Se[polish]|zi[german])"" 
    
""sio"" """" """" ""(So[polish]|so)"" 
""siu"" """" """" ""(Su[polish]|sju)"" 
     
""si"" ""[äöëaáuiíoóeéêy]"" """" ""(Si[polish]|si|zi[portuguese+french+italian+german])""
""si"" """" """" ""(Si[polish]|si|zi[german])""
""s"" ""[aáuiíoóeéêy]"" ""[aáuíoóeéêy]"" ""(s|z[portuguese+french+italian+german])"" 
""s"" """" ""[aeouäöë]"" ""(s|z[german])""
""s"" ""[aeiouy]"" ""[dglmnrv]"" ""(s|z|Z[portuguese]|[french])"" // Groslot
""s"" """" ""[dglmnrv]"" ""(s|z|Z[portuguese])"" 
                 
    //Processing of ""g""   
""gue"" """" ""$"" ""(k[french]|gve)""  // portuguese+spanish
""gu"" """" ""[ei]"" ""(g[french]|gv[portuguese+spanish])"" // portuguese+spanish
""gu"" """" ""[ao]"" ""gv""     // portuguese+spanish
""guy"" """" """" ""gi""  // french
    
""gli"" """" """" ""(glI|l[italian])"" 
""gni"" """" """" ""(gnI|ni[italian+french])""
""gn"" """" ""[aeou]"" ""(n[italian+french]|nj[italian+french]|gn)""
    
""ggie"" """" """" ""(je[greeklatin]|dZe)"" // dZ is Italian
""ggi"" """" ""[aou]"" ""(j[greeklatin]|dZ)"" // dZ is Italian
        
""ggi"" ""[yaeiou]"" ""[aou]"" ""(gI|dZ[italian]|j[greeklatin])""  
""gge"" ""[yaeiou]"" """" ""(gE|xe[spanish]|gZe[portuguese+french]|dZe[english+romanian+italian+spanish]|je[greeklatin])"" 
""ggi"" ""[yaeiou]"" """" ""(gI|xi[spanish]|gZi[portuguese+french]|dZi[english+romanian+italian+spanish]|i[greeklatin])"" 
""ggi"" """" ""[aou]"" ""(gI|dZ[italian]|j[greeklatin])"" 
    
""gie"" """" ""$"" ""(ge|gi[german]|ji[french]|dZe[italian])"" 
""gie"" """" """" ""(ge|gi[german]|dZe[italian]|je[greeklatin])"" 
""gi"" """" ""[aou]"" ""(i[greeklatin]|dZ)"" // dZ is Italian
        
""ge"" ""[yaeiou]"" """" ""(gE|xe[spanish]|Ze[portuguese+french]|dZe[english+romanian+italian+spanish])"" 
""gi"" ""[yaeiou]"" """" ""(gI|xi[spanish]|Zi[portuguese+french]|dZi[english+romanian+italian+spanish])"" 
""ge"" """" """" ""(gE|xe[spanish]|hE[russian]|je[greeklatin]|Ze[portuguese+french]|dZe[english+romanian+italian+spanish])"" 
""gi"" """" """" ""(gI|xi[spanish]|hI[russian]|i[greeklatin]|Zi[portuguese+french]|dZi[english+romanian+italian+spanish])"" 
""gy"" """" ""[aeouáéóúüöőű]"" ""(gi|dj[hungarian])""
""gy"" """" """" ""(gi|d[hungarian])"" 
""g"" ""[yaeiou]"" ""[aouyei]"" ""g"" 
""g"" """" ""[aouei]"" ""(g|h[russian])"" 
    
    //Processing of ""j""        
""ij"" """" """" ""(i|ej[dutch]|ix[spanish]|iZ[french+romanian+turkish+portuguese])"" 
""j"" """" ""[aoeiuy]"" ""(j|dZ[english]|x[spanish]|Z[french+romanian+turkish+portuguese])"" 
         
    //Processing of ""z""    
""rz"" ""t"" """" ""(S[polish]|r)"" // polish
""rz"" """" """" ""(rz|rts[german]|Z[polish]|r[polish]|rZ[polish])"" 
        
""tz"" """" ""$"" ""(ts|tS[english+german])"" 
""tz"" ""^"" """" ""(ts[english+german+russian]|tS[english+german])"" 
""tz"" """" """" ""(ts[english+german+russian]|tz)"" 
    
""zia"" """" ""[bcdgkpstwzż]"" ""(Za[polish]|za[polish]|zja)"" 
""zia"" """" """" ""(Za[polish]|zja)"" 
""zią"" """" ""[bp]"" ""(Zom[polish]|zom)""  // polish
""zią"" """" """" ""(Zon[polish]|zon)"" // polish
""zię"" """" ""[bp]"" ""(Zem[polish]|zem)"" // polish
""zię"" """" """" ""(Zen[polish]|zen)"" // polish
""zie"" """" ""[bcdgkpstwzż]"" ""(Ze[polish]|ze[polish]|ze|tsi[german])"" 
""zie"" """" """" ""(ze|Ze[polish]|tsi[german])"" 
""zio"" """" """" ""(Zo[polish]|zo)"" 
""ziu"" """" """" ""(Zu[polish]|zju)"" 
""zi"" """" """" ""(Zi[polish]|zi|tsi[german]|dzi[italian]|tsi[italian]|si[spanish])"" 

""z"" """" ""$"" ""(s|ts[german]|ts[italian]|S[portuguese])"" // ts It, s/S/Z Port, s in Sp, z Fr
""z"" """" ""[bdgv]"" ""(z|dz[italian]|Z[portuguese])"" // dz It, Z/z Port, z Sp & Fr
""z"" """" ""[ptckf]"" ""(s|ts[italian]|S[portuguese])"" // ts It, s/S/z Port, z/s Sp
              
 // VOWELS  
""aue"" """" """" ""aue"" 
""oue"" """" """" ""(oue|ve[french])"" 
""eau"" """" """" ""o"" // French
        
""ae"" """" """" ""(Y[german]|aje[russian]|ae)"" 
""ai"" """" """" ""aj"" 
""au"" """" """" ""(au|o[french])"" 
""ay"" """" """" ""aj"" 
""ão"" """" """" ""(au|an)"" // Port
""ãe"" """" """" ""(aj|an)"" // Port
""ãi"" """" """" ""(aj|an)"" // Port
""ea"" """" """" ""(ea|ja[romanian])""
""ee"" """" """" ""(i[english]|aje[russian]|e)"" 
""ei"" """" """" ""(aj|ej)""
""eu"" """" """" ""(eu|Yj[german]|ej[german]|oj[german]|Y[dutch])""
""ey"" """" """" ""(aj|ej)""
""ia"" """" """" ""ja"" 
""ie"" """" """" ""(i[german]|e[polish]|ije[russian]|Q[dutch]|je)"" 
""ii"" """" ""$"" ""i"" // russian
""io"" """" """" ""(jo|e[russian])""
""iu"" """" """" ""ju"" 
""iy"" """" ""$"" ""i"" // russian
""oe"" """" """" ""(Y[german]|oje[russian]|u[dutch]|oe)"" 
""oi"" """" """" ""oj"" 
""oo"" """" """" ""(u[english]|o)"" 
""ou"" """" """" ""(ou|u[french+greeklatin]|au[dutch])"" 
""où"" """" """" ""u"" // french
""oy"" """" """" ""oj"" 
""õe"" """" """" ""(oj|on)"" // Port
""ua"" """" """" ""va""
""ue"" """" """" ""(Q[german]|uje[russian]|ve)"" 
""ui"" """" """" ""(uj|vi|Y[dutch])"" 
""uu"" """" """" ""(u|Q[dutch])"" 
""uo"" """" """" ""(vo|o)""
""uy"" """" """" ""uj"" 
""ya"" """" """" ""ja"" 
""ye"" """" """" ""(je|ije[russian])""
""yi"" ""^"" """" ""i""
""yi"" """" ""$"" ""i"" // russian
""yo"" """" """" ""(jo|e[russian])""
""yu"" """" """" ""ju"" 
""yy"" """" ""$"" ""i"" // russian
    
""i"" ""[áóéê]"" """" ""j""
""y"" ""[áóéê]"" """" ""j""
         
""e"" ""^"" """" ""(e|je[russian])"" 
""e"" """" ""$"" ""(e|EE[english+french])"" 
            
// LANGUAGE SPECIFIC CHARACTERS 
""ą"" """" ""[bp]"" ""om"" // polish
""ą"" """" """" ""on""  // polish
""ä"" """" """" ""(Y|e)"" 
""á"" """" """" ""a"" // Port & Sp
""à"" """" """" ""a"" 
""â"" """" """" ""a"" 
""ã"" """" """" ""(a|an)"" // Port
""ă"" """" """" ""(e[romanian]|a)"" // romanian
""č"" """" """" ""tS"" // czech
""ć"" """" """" ""(tS[polish]|ts)""  // polish
""ç"" """" """" ""(s|tS[turkish])""
""ď"" """" """" ""(d|dj[czech])""
""ę"" """" ""[bp]"" ""em"" // polish
""ę"" """" """" ""en"" // polish
""é"" """" """" ""e"" 
""è"" """" """" ""e"" 
""ê"" """" """" ""e"" 
""ě"" """" """" ""(e|je[czech])"" 
""ğ"" """" """" """" // turkish
""í"" """" """" ""i"" 
""î"" """" """" ""i"" 
""ı"" """" """" ""(i|e[turkish]|[turkish])"" 
""ł"" """" """" ""l"" 
""ń"" """" """" ""(n|nj[polish])"" // polish
""ñ"" """" """" ""(n|nj[spanish])"" 
""ó"" """" """" ""(u[polish]|o)""  
""ô"" """" """" ""o"" // Port & Fr
""õ"" """" """" ""(o|on[portuguese]|Y[hungarian])"" 
""ò"" """" """" ""o""  // Sp & It
""ö"" """" """" ""Y""
""ř"" """" """" ""(r|rZ[czech])""
""ś"" """" """" ""(S[polish]|s)"" 
""ş"" """" """" ""S"" // romanian+turkish
""š"" """" """" ""S"" // czech
""ţ"" """" """" ""ts""  // romanian
""ť"" """" """" ""(t|tj[czech])""
""ű"" """" """" ""Q"" // hungarian
""ü"" """" """" ""(Q|u[portuguese+spanish])""
""ú"" """" """" ""u"" 
""ů"" """" """" ""u"" // czech
""ù"" """" """" ""u"" // french
""ý"" """" """" ""i""  // czech
""ż"" """" """" ""Z"" // polish
""ź"" """" """" ""(Z[polish]|z)"" 
   
""ß"" """" """" ""s"" // german
""'"" """" """" """" // russian
""\"""" """" """" """" // russian
 
""o"" """" ""[bcćdgklłmnńrsśtwzźż]"" ""(O|P[polish])""    
    
 // LATIN ALPHABET
""a"" """" """" ""A""
""b"" """" """" ""B"" 
""c"" """" """" ""(k|ts[polish+czech]|dZ[turkish])"" 
""d"" """" """" ""d""
""e"" """" """" ""E""
""f"" """" """" ""f""
   //array(""g"" """" """" ""(g|x[dutch])"" // Dutch sound disabled
""g"" """" """" ""g""
""h"" """" """" ""(h|x[romanian]|H[french+portuguese+italian+spanish])"" 
""i"" """" """" ""I""
""j"" """" """" ""(j|x[spanish]|Z[french+romanian+turkish+portuguese])"" 
""k"" """" """" ""k""
""l"" """" """" ""l""
""m"" """" """" ""m""
""n"" """" """" ""n""
""o"" """" """" ""O""
""p"" """" """" ""p""
""q"" """" """" ""k""
""r"" """" """" ""r""
""s"" """" """" ""(s|S[portuguese])"" 
""t"" """" """" ""t""
""u"" """" """" ""U""
""v"" """" """" ""V"" 
""w"" """" """" ""(v|w[english+dutch])""     
""x"" """" """" ""(ks|gz|S[portuguese+spanish])""   // S/ks Port & Sp, gz Sp, It only ks
""y"" """" """" ""i""
""z"" """" """" ""(z|ts[german]|dz[italian]|ts[italian]|s[spanish])"" // ts/dz It, z Port & Fr, z/s Sp
"%string.
Definition bm_embedded_files_f_sep_approx_any : ustr := Eval vm_compute in str "/*
 * Licensed to the Apache Software Foundation (ASF) under one or more
 * contributor license agreements.  See the NOTICE file distributed with
 * this work for additional information regarding copyright ownership.
 * The ASF licenses this file to You under the Apache License, Version 2.0
 * (the ""License""); you may not use this file except in compliance with
 * the License.  You may obtain a copy of the License at
 *
 *      http://www.apache.org/licenses/LICENSE-2.0
 *
 * Unless required by applicable law or agreed to in writing, software
 * distributed under the License is distributed on an ""AS IS"" BASIS,
 * WITHOUT WARRANTIES OR CONDITIONS OF ANY KIND, either express or implied.
 * See the License for the specific language governing permissions and
 * limitations under the License.
 */

// SEPHARDIC

""E"" """" """" """""%string.
Definition bm_embedded_files_f_sep_approx_common : ustr := Eval vm_compute in str "/*
 * Licensed to the Apache Software Foundation (ASF) under one or more
 * contributor license agreements.  See the NOTICE file distributed with
 * this work for additional information regarding copyright ownership.
 * The ASF licenses this file to You under the Apache License, Version 2.0
 * (the ""License""); you may not use this file except in compliance with
 * the License.  You may obtain a copy of the License at
 *
 *      http://www.apache.org/licenses/LICENSE-2.0
 *
 * Unless required by applicable law or agreed to in writing, software
 * distributed under the License is distributed on an ""AS IS"" BASIS,
 * WITHOUT WARRANTIES OR CONDITIONS OF ANY KIND, either express or implied.
 * See the License for the specific language governing permissions and
 * limitations under the License.
 */

#include sep_exact_approx_common

""bens"" ""^"" """" ""(binz|s)"" 
""benS"" ""^"" """" ""(binz|s)"" 
""ben"" ""^"" """" ""(bin|)"" 

""abens"" ""^"" """" ""(abinz|binz|s)"" 
""abenS"" ""^"" """" ""(abinz|binz|s)"" 
""aben"" ""^"" """" ""(abin|bin|)""

""els"" ""^"" """" ""(ilz|alz|s)"" 
""elS"" ""^"" """" ""(ilz|alz|s)"" 
""el"" ""^"" """" ""(il|al|)"" 
""als"" ""^"" """" ""(alz|s)"" 
""alS"" ""^"" """" ""(alz|s)"" 
""al"" ""^"" """" ""(al|)"" 

//""dels"" ""^"" """" ""(dilz|s)"" 
//""delS"" ""^"" """" ""(dilz|s)"" 
""del"" ""^"" """" ""(dil|)"" 
""dela"" ""^"" """" ""(dila|)"" 
//""delo"" ""^"" """" ""(dila|)"" 
""da"" ""^"" """" ""(da|)"" 
""de"" ""^"" """" ""(di|)"" 
//""des"" ""^"" """" ""(dis|dAs|)"" 
//""di"" ""^"" """" ""(di|)"" 
//""dos"" ""^"" """" ""(das|dus|)"" 

""oa"" """" """" ""(va|a|D)""
""oe"" """" """" ""(vi|D)""
""ae"" """" """" ""D""

/// ""s"" """" ""$"" ""(s|)"" // Attia(s)
/// ""C"" """" """" ""s""  // ""c"" could actually be ""�""

""n"" """" ""[bp]"" ""m""

""h"" """" """" ""(|h|f)"" // sound ""h"" (absent) can be expressed via /x/, Cojab in Spanish = Kohab ; Hakim = Fakim
""x"" """" """" ""h""

// DIPHTHONGS ARE APPROXIMATELY equivalent
""aja"" ""^"" """" ""(Da|ia)""                         
""aje"" ""^"" """" ""(Di|Da|i|ia)""                         
""aji"" ""^"" """" ""(Di|i)""                         
""ajo"" ""^"" """" ""(Du|Da|iu|ia)""                         
""aju"" ""^"" """" ""(Du|iu)""                         

""aj"" """" """" ""D""                         
""ej"" """" """" ""D""                         
""oj"" """" """" ""D""                         
""uj"" """" """" ""D""                         
""au"" """" """" ""D""                         
""eu"" """" """" ""D""                         
""ou"" """" """" ""D""                         

""a"" ""^"" """" ""(a|)""  // Arabic

""ja"" ""^"" """" ""ia""                         
""je"" ""^"" """" ""i""                         
""jo"" ""^"" """" ""(iu|ia)""                         
""ju"" ""^"" """" ""iu""                         

""ja"" """" """" ""a""                         
""je"" """" """" ""i""                         
""ji"" """" """" ""i""                         
""jo"" """" """" ""u""                         
""ju"" """" """" ""u""                         

""j"" """" """" ""i""                         

// CONSONANTS {z & Z & dZ; s & S} are approximately interchangeable
""s"" """" ""[rmnl]"" ""z""
""S"" """" ""[rmnl]"" ""z""
""s"" ""[rmnl]"" """" ""z""
""S"" ""[rmnl]"" """" ""z"" 

""dS"" """" ""$"" ""S""
""dZ"" """" ""$"" ""S""
""Z"" """" ""$"" ""S""
""S"" """" ""$"" ""(S|s)""
""z"" """" ""$"" ""(S|s)""

""S"" """" """" ""s""
""dZ"" """" """" ""z""
""Z"" """" """" ""z""

""i"" """" ""$"" ""(i|)"" // often in Arabic
""e"" """" """" ""i""

""o"" """" ""$"" ""(a|u)""
""o"" """" """" ""u""

// special character to deal correctly in Hebrew match
""B"" """" """" ""b"" 
""V"" """" """" ""v"" 

// Arabic
""p"" ""^"" """" ""b""
"%string.
Definition bm_embedded_files_f_sep_exact_any : ustr := Eval vm_compute in str "/*
 * Licensed to the Apache Software Foundation (ASF) under one or more
 * contributor license agreements.  See the NOTICE file distributed with
 * this work for additional information regarding copyright ownership.
 * The ASF licenses this file to You under the Apache License, Version 2.0
 * (the ""License""); you may not use this file except in compliance with
 * the License.  You may obtain a copy of the License at
 *
 *      http://www.apache.org/licenses/LICENSE-2.0
 *
 * Unless required by applicable law or agreed to in writing, software
 * distributed under the License is distributed on an ""AS IS"" BASIS,
 * WITHOUT WARRANTIES OR CONDITIONS OF ANY KIND, either express or implied.
 * See the License for the specific language governing permissions and
 * limitations under the License.
 */

""E"" """" """" ""e"""%string.
Definition bm_embedded_files_f_sep_exact_approx_common : ustr := Eval vm_compute in str "/*
 * Licensed to the Apache Software Foundation (ASF) under one or more
 * contributor license agreements.  See the NOTICE file distributed with
 * this work for additional information regarding copyright ownership.
 * The ASF licenses this file to You under the Apache License, Version 2.0
 * (the ""License""); you may not use this file except in compliance with
 * the License.  You may obtain a copy of the License at
 *
 *      http://www.apache.org/licenses/LICENSE-2.0
 *
 * Unless required by applicable law or agreed to in writing, software
 * distributed under the License is distributed on an ""AS IS"" BASIS,
 * WITHOUT WARRANTIES OR CONDITIONS OF ANY KIND, either express or implied.
 * See the License for the specific language governing permissions and
 * limitations under the License.
 */

// Sephardic

""h"" """" ""$"" """"

// VOICED - UNVOICED CONSONANTS
""b"" """" ""[fktSs]"" ""p""
""b"" """" ""p"" """"
""b"" """" ""$"" ""p""
""p"" """" ""[vgdZz]"" ""b""
""p"" """" ""b"" """"

""v"" """" ""[pktSs]"" ""f""
""v"" """" ""f"" """"
""v"" """" ""$"" ""f""
""f"" """" ""[vbgdZz]"" ""v""
""f"" """" ""v"" """"

""g"" """" ""[pftSs]"" ""k""
""g"" """" ""k"" """"
""g"" """" ""$"" ""k""
""k"" """" ""[vbdZz]"" ""g""
""k"" """" ""g"" """"

""d"" """" ""[pfkSs]"" ""t""
""d"" """" ""t"" """"
""d"" """" ""$"" ""t""
""t"" """" ""[vbgZz]"" ""d""
""t"" """" ""d"" """"

""s"" """" ""dZ"" """"
""s"" """" ""tS"" """"

""z"" """" ""[pfkSt]"" ""s""
""z"" """" ""[sSzZ]"" """"
""s"" """" ""[sSzZ]"" """"
""Z"" """" ""[sSzZ]"" """"
""S"" """" ""[sSzZ]"" """"

// SIMPLIFICATION OF CONSONANT CLUSTERS
""nm"" """" """" ""m""

// DOUBLE --> SINGLE
""ji"" ""^"" """" ""i""

""a"" """" ""a"" """"
""b"" """" ""b"" """"
""d"" """" ""d"" """"
""e"" """" ""e"" """"
""f"" """" ""f"" """"
""g"" """" ""g"" """"
""i"" """" ""i"" """"
""k"" """" ""k"" """"
""l"" """" ""l"" """"
""m"" """" ""m"" """"
""n"" """" ""n"" """"
""o"" """" ""o"" """"
""p"" """" ""p"" """"
""r"" """" ""r"" """"
""t"" """" ""t"" """"
""u"" """" ""u"" """"
""v"" """" ""v"" """"
""z"" """" ""z"" """"
"%string.
Definition bm_embedded_files_f_sep_exact_common : ustr := Eval vm_compute in str "/*
 * Licensed to the Apache Software Foundation (ASF) under one or more
 * contributor license agreements.  See the NOTICE file distributed with
 * this work for additional information regarding copyright ownership.
 * The ASF licenses this file to You under the Apache License, Version 2.0
 * (the ""License""); you may not use this file except in compliance with
 * the License.  You may obtain a copy of the License at
 *
 *      http://www.apache.org/licenses/LICENSE-2.0
 *
 * Unless required by applicable law or agreed to in writing, software
 * distributed under the License is distributed on an ""AS IS"" BASIS,
 * WITHOUT WARRANTIES OR CONDITIONS OF ANY KIND, either express or implied.
 * See the License for the specific language governing permissions and
 * limitations under the License.
 */

#include sep_exact_approx_common

""h"" """" """" """"
//""C"" """" """" ""k""  // c that can actually be �

// VOICED - UNVOICED CONSONANTS
""s"" ""[^t]"" ""[bgZd]"" ""z""
""Z"" """" ""[pfkst]"" ""S""
""Z"" """" ""$"" ""S""
""S"" """" ""[bgzd]"" ""Z""
""z"" """" ""$"" ""s""

//special character to deal correctly in Hebrew match
""B"" """" """" ""b""
""V"" """" """" ""v""
"%string.
Definition bm_embedded_files_f_sep_rules_any : ustr := Eval vm_compute in str "/*
 * Licensed to the Apache Software Foundation (ASF) under one or more
 * contributor license agreements.  See the NOTICE file distributed with
 * this work for additional information regarding copyright ownership.
 * The ASF licenses this file to You under the Apache License, Version 2.0
 * (the ""License""); you may not use this file except in compliance with
 * the License.  You may obtain a copy of the License at
 *
 *      http://www.apache.org/licenses/LICENSE-2.0
 *
 * Unless required by applicable law or agreed to in writing, software
 * distributed under the License is distributed on an ""AS IS"" BASIS,
 * WITHOUT WARRANTIES OR CONDITIONS OF ANY KIND, either express or implied.
 * See the License for the specific language governing permissions and
 * limitations under the License.
 */

// SEPHARDIC: INCORPORATES Portuguese + Italian + Spanish(+Catalan) + French

// CONSONANTS
""ph"" """" """" ""f"" // foreign
""sh"" """" """" ""S"" // foreign
""kh"" """" """" ""x"" // foreign

""gli"" """" """" ""(gli|l[italian])"" 
""gni"" """" """" ""(gni|ni[italian+french])""
""gn"" """" ""[aeou]"" ""(n[italian+french]|nj[italian+french]|gn)"" 
""gh"" """" """" ""g"" // It + translit. from Arabic
""dh"" """" """" ""d"" // translit. from Arabic
""bh"" """" """" ""b"" // translit. from Arabic
""th"" """" """" ""t"" // translit. from Arabic
""lh"" """" """" ""l"" // Port
""nh"" """" """" ""nj"" // Port

""ig"" ""[aeiou]"" """" ""(ig|tS[spanish])""
""ix"" ""[aeiou]"" """" ""S"" // Sp
""tx"" """" """" ""tS"" // Sp
""tj"" """" ""$"" ""tS"" // Sp
""tj"" """" """" ""dZ"" // Sp
""tg"" """" """" ""(tg|dZ[spanish])""

""gi"" """" ""[aeou]"" ""dZ"" // italian
""g"" """" ""y"" ""Z"" // french
""gg"" """" ""[ei]"" ""(gZ[portuguese+french]|dZ[italian+spanish]|x[spanish])"" 
""g"" """" ""[ei]"" ""(Z[portuguese+french]|dZ[italian+spanish]|x[spanish])"" 

""guy"" """" """" ""gi""     
""gue"" """" ""$"" ""(k[french]|ge)""
""gu"" """" ""[ei]"" ""(g|gv)""     // not It
""gu"" """" ""[ao]"" ""gv""  // not It  

""ñ"" """" """" ""(n|nj)"" 
""ny"" """" """" ""nj"" 

""sc"" """" ""[ei]"" ""(s|S[italian])"" 
""sç"" """" ""[aeiou]"" ""s"" // not It
""ss"" """" """" ""s""
""ç"" """" """" ""s""   // not It

""ch"" """" ""[ei]"" ""(k[italian]|S[portuguese+french]|tS[spanish]|dZ[spanish])"" 
""ch"" """" """" ""(S|tS[spanish]|dZ[spanish])"" 

""ci"" """" ""[aeou]"" ""(tS[italian]|si)"" 
""cc"" """" ""[eiyéèê]"" ""(tS[italian]|ks[portuguese+french+spanish])"" 
""c"" """" ""[eiyéèê]"" ""(tS[italian]|s[portuguese+french+spanish])"" 
//""c"" """" ""[aou]"" ""(k|C[portuguese+spanish])"" // ""C"" means that the actual letter could be ""ç"" (cedille omitted)

""s"" ""^"" """" ""s""
""s"" ""[aáuiíoóeéêy]"" ""[aáuiíoóeéêy]"" ""(s[spanish]|z[portuguese+french+italian])"" 
""s"" """" ""[dglmnrv]"" ""(z|Z[portuguese])"" 

""z"" """" ""$"" ""(s|ts[italian]|S[portuguese])"" // ts It, s/S/Z Port, s in Sp, z Fr
""z"" """" ""[bdgv]"" ""(z|dz[italian]|Z[portuguese])"" // dz It, Z/z Port, z Sp & Fr
""z"" """" ""[ptckf]"" ""(s|ts[italian]|S[portuguese])"" // ts It, s/S/z Port, z/s Sp
""z"" """" """" ""(z|dz[italian]|ts[italian]|s[spanish])"" // ts/dz It, z Port & Fr, z/s Sp

""que"" """" ""$"" ""(k[french]|ke)""
""qu"" """" ""[eiu]"" ""k""    
""qu"" """" ""[ao]"" ""(kv|k)"" // k is It   

""ex"" """" ""[aáuiíoóeéêy]"" ""(ez[portuguese]|eS[portuguese]|eks|egz)"" 
""ex"" """" ""[cs]"" ""(e[portuguese]|ek)"" 

""m"" """" ""[cdglnrst]"" ""(m|n[portuguese])"" 
""m"" """" ""[bfpv]"" ""(m|n[portuguese+spanish])"" 
""m"" """" ""$"" ""(m|n[portuguese])"" 

""b"" ""^"" """" ""(b|V[spanish])"" 
""v"" ""^"" """" ""(v|B[spanish])"" 

// VOWELS   
""eau"" """" """" ""o"" // Fr

""ouh"" """" ""[aioe]"" ""(v[french]|uh)""
""uh"" """" ""[aioe]"" ""(v|uh)""
""ou"" """" ""[aioe]"" ""v"" // french
""uo"" """" """" ""(vo|o)""
""u"" """" ""[aie]"" ""v""

""i"" ""[aáuoóeéê]"" """" ""j""
""i"" """" ""[aeou]"" ""j""
""y"" ""[aáuiíoóeéê]"" """" ""j""
""y"" """" ""[aeiíou]"" ""j""
""e"" """" ""$"" ""(e|E[french])""

""ão"" """" """" ""(au|an)"" // Port
""ãe"" """" """" ""(aj|an)"" // Port
""ãi"" """" """" ""(aj|an)"" // Port
""õe"" """" """" ""(oj|on)"" // Port
""où"" """" """" ""u"" // Fr
""ou"" """" """" ""(ou|u[french])"" 

""â"" """" """" ""a"" // Port & Fr
""à"" """" """" ""a"" // Port 
""á"" """" """" ""a"" // Port & Sp
""ã"" """" """" ""(a|an)"" // Port
""é"" """" """" ""e"" 
""ê"" """" """" ""e"" // Port & Fr
""è"" """" """" ""e"" // Sp & Fr & It
""í"" """" """" ""i"" // Port & Sp
""î"" """" """" ""i"" // Fr
""ô"" """" """" ""o"" // Port & Fr
""ó"" """" """" ""o"" // Port & Sp & It
""õ"" """" """" ""(o|on)"" // Port
""ò"" """" """" ""o""  // Sp & It
""ú"" """" """" ""u"" // Port & Sp
""ü"" """" """" ""u"" // Port & Sp

// LATIN ALPHABET     
""a"" """" """" ""a""
""b"" """" """" ""(b|v[spanish])"" 
""c"" """" """" ""k""
""d"" """" """" ""d""
""e"" """" """" ""e""
""f"" """" """" ""f""
""g"" """" """" ""g""
""h"" """" """" ""h"" 
""i"" """" """" ""i""
""j"" """" """" ""(x[spanish]|Z)"" // not It
""k"" """" """" ""k""
""l"" """" """" ""l""
""m"" """" """" ""m""
""n"" """" """" ""n""
""o"" """" """" ""o""
""p"" """" """" ""p""
""q"" """" """" ""k""    
""r"" """" """" ""r""
""s"" """" """" ""(s|S[portuguese])"" 
""t"" """" """" ""t""
""u"" """" """" ""u""
""v"" """" """" ""(v|b[spanish])"" 
""w"" """" """" ""v""    // foreign
""x"" """" """" ""(ks|gz|S[portuguese+spanish])""   // S/ks Port & Sp, gz Sp, It only ks
""y"" """" """" ""i""   
""z"" """" """" ""z""
"%string.
Definition bm_embedded_files : file_list := Eval vm_compute in [
  (str "ash_approx_any.txt"%string, Some bm_embedded_files_f_ash_approx_any);
  (str "ash_approx_common.txt"%string, Some bm_embedded_files_f_ash_approx_common);
  (str "ash_exact_any.txt"%string, Some bm_embedded_files_f_ash_exact_any);
  (str "ash_exact_approx_common.txt"%string, Some bm_embedded_files_f_ash_exact_approx_common);
  (str "ash_exact_common.txt"%string, Some bm_embedded_files_f_ash_exact_common);
  (str "ash_rules_any.txt"%string, Some bm_embedded_files_f_ash_rules_any);
  (str "gen_approx_any.txt"%string, Some bm_embedded_files_f_gen_approx_any);
  (str "gen_approx_common.txt"%string, Some bm_embedded_files_f_gen_approx_common);
  (str "gen_exact_any.txt"%string, Some bm_embedded_files_f_gen_exact_any);
  (str "gen_exact_approx_common.txt"%string, Some bm_embedded_files_f_gen_exact_approx_common);
  (str "gen_exact_common.txt"%string, Some bm_embedded_files_f_gen_exact_common);
  (str "gen_rules_any.txt"%string, Some bm_embedded_files_f_gen_rules_any);
  (str "sep_approx_any.txt"%string, Some bm_embedded_files_f_sep_approx_any);
  (str "sep_approx_common.txt"%string, Some bm_embedded_files_f_sep_approx_common);
  (str "sep_exact_any.txt"%string, Some bm_embedded_files_f_sep_exact_any);
  (str "sep_exact_approx_common.txt"%string, Some bm_embedded_files_f_sep_exact_approx_common);
  (str "sep_exact_common.txt"%string, Some bm_embedded_files_f_sep_exact_common);
  (str "sep_rules_any.txt"%string, Some bm_embedded_files_f_sep_rules_any)
].
