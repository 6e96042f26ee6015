(** GENERATED by tools/gen_rule_proofs.py: the value of the replacement refines that of the
    left hand side, for each rewrite rule of simplify_rules.h (tables: max). *)
From Coq Require Import ZArith List Bool Lia.
From Verif Require Import Arith_Model Arith_Spec Arith_Proofs Expr_Model Expr_Spec Expr_Proofs Rewrite_Model Rewrite_Proofs RuleTac Rules.
Import ListNotations.
Open Scope Z_scope.

Lemma ok_max_163 : rule_ok in64 true r_max_163. Proof. ruleB. Qed.
Lemma ok_max_164 : rule_ok in64 false r_max_164. Proof. rule. Qed.
Lemma ok_max_165 : rule_ok in64 true r_max_165. Proof. ruleB. Qed.
Lemma ok_max_166 : rule_ok in64 false r_max_166. Proof. rule. Qed.
Lemma ok_max_167 : rule_ok in64 false r_max_167. Proof. rule. Qed.
Lemma ok_max_170 : rule_ok in64 false r_max_170. Proof. rule. Qed.
Lemma ok_max_173 : rule_ok in64 false r_max_173. Proof. rule. Qed.
Lemma ok_max_174 : rule_ok in64 false r_max_174. Proof. rule. Qed.
Lemma ok_max_175 : rule_ok in64 false r_max_175. Proof. rule. Qed.
Lemma ok_max_176 : rule_ok in64 false r_max_176. Proof. rule. Qed.
Lemma ok_max_177 : rule_ok in64 false r_max_177. Proof. rule. Qed.
Lemma ok_max_178 : rule_ok in64 false r_max_178. Proof. rule. Qed.
Lemma ok_max_179 : rule_ok in64 false r_max_179. Proof. rule. Qed.
Lemma ok_max_182 : rule_ok in64 false r_max_182. Proof. rule. Qed.
Lemma ok_max_184 : rule_ok small false r_max_184. Proof. ruleC. Qed.
Lemma ok_max_187 : rule_ok in64 false r_max_187. Proof. rule. Qed.
Lemma ok_max_188 : rule_ok in64 false r_max_188. Proof. rule. Qed.
Lemma ok_max_189 : rule_ok in64 false r_max_189. Proof. rule. Qed.
Lemma ok_max_190 : rule_ok in64 false r_max_190. Proof. rule. Qed.
Lemma ok_max_191 : rule_ok in64 false r_max_191. Proof. rule. Qed.
Lemma ok_max_192 : rule_ok in64 false r_max_192. Proof. rule. Qed.
Lemma ok_max_193 : rule_ok in64 false r_max_193. Proof. rule. Qed.
Lemma ok_max_194 : rule_ok in64 false r_max_194. Proof. rule. Qed.
Lemma ok_max_197 : rule_ok in64 false r_max_197. Proof. rule. Qed.
Lemma ok_max_198 : rule_ok in64 false r_max_198. Proof. rule. Qed.
Lemma ok_max_199 : rule_ok in64 false r_max_199. Proof. rule. Qed.
Lemma ok_max_202 : rule_ok in64 false r_max_202. Proof. rule. Qed.
Lemma ok_max_203 : rule_ok in64 false r_max_203. Proof. rule. Qed.
Lemma ok_max_204 : rule_ok in64 false r_max_204. Proof. rule. Qed.
Lemma ok_max_207 : rule_ok in64 false r_max_207. Proof. rule. Qed.
Lemma ok_max_208 : rule_ok in64 false r_max_208. Proof. rule. Qed.
Lemma ok_max_209 : rule_ok in64 false r_max_209. Proof. rule. Qed.
Lemma ok_max_210 : rule_ok in64 false r_max_210. Proof. rule. Qed.
Lemma ok_max_211 : rule_ok in64 false r_max_211. Proof. rule. Qed.
Lemma ok_max_212 : rule_ok in64 false r_max_212. Proof. rule. Qed.
Lemma ok_max_213 : rule_ok in64 false r_max_213. Proof. rule. Qed.
Lemma ok_max_214 : rule_ok in64 false r_max_214. Proof. rule. Qed.
Lemma ok_max_215 : rule_ok in64 false r_max_215. Proof. rule. Qed.
Lemma ok_max_216 : rule_ok in64 false r_max_216. Proof. rule. Qed.
Lemma ok_max_217 : rule_ok in64 false r_max_217. Proof. rule. Qed.
Lemma ok_max_218 : rule_ok in64 false r_max_218. Proof. rule. Qed.
Lemma ok_max_219 : rule_ok in64 false r_max_219. Proof. rule. Qed.
Lemma ok_max_221 : rule_ok in64 false r_max_221. Proof. rule2. Qed.
Lemma ok_max_222 : rule_ok in64 false r_max_222. Proof. rule2. Qed.
Lemma ok_max_224 : rule_ok in64 false r_max_224. Proof. rule. Qed.
Lemma ok_max_225 : rule_ok in64 false r_max_225. Proof. rule. Qed.
Lemma ok_max_226 : rule_ok in64 false r_max_226. Proof. rule. Qed.
Lemma ok_max_227 : rule_ok in64 false r_max_227. Proof. rule. Qed.
Lemma ok_max_230 : rule_ok in64 false r_max_230. Proof. rule. Qed.
Lemma ok_max_231 : rule_ok in64 false r_max_231. Proof. rule. Qed.
Lemma ok_max_232 : rule_ok in64 false r_max_232. Proof. rule2. Qed.
Lemma ok_max_233 : rule_ok in64 false r_max_233. Proof. rule. Qed.
Lemma ok_max_236 : rule_ok in64 false r_max_236. Proof. rule2. Qed.
Lemma ok_max_239 : rule_ok in64 false r_max_239. Proof. rule. Qed.
Lemma ok_max_240 : rule_ok in64 false r_max_240. Proof. rule. Qed.
Lemma ok_max_241 : rule_ok in64 false r_max_241. Proof. rule. Qed.
Lemma ok_max_244 : rule_ok in64 false r_max_244. Proof. rule. Qed.
Lemma ok_max_245 : rule_ok in64 false r_max_245. Proof. rule. Qed.
Lemma ok_max_248 : rule_ok in64 false r_max_248. Proof. rule2. Qed.
Lemma ok_max_252 : rule_ok in64 false r_max_252. Proof. rule2. Qed.
Lemma ok_max_257 : rule_ok in64 false r_max_257. Proof. rule2. Qed.
Lemma ok_max_261 : rule_ok in64 false r_max_261. Proof. rule2. Qed.
Lemma ok_max_265 : rule_ok in64 false r_max_265. Proof. rule2. Qed.
Lemma ok_max_269 : rule_ok small false r_max_269. Proof. ruleS. Qed.
Lemma ok_max_273 : rule_ok in64 false r_max_273. Proof. rule. Qed.