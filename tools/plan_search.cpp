#include <bits/stdc++.h>
using namespace std; typedef uint64_t u; typedef vector<pair<int,int>> Net;
mt19937_64 rng;
// bdd nodes: 0=F 1=T
struct Nd{int v,l,h;}; vector<Nd> P; 
int mk(int v,int l,int h){ if(l==h) return l; P.push_back({v,l,h}); return P.size()-1;}
// hash cons for equality l==h: use unique table
unordered_map<u,int> uq; 
int mku(int v,int l,int h){ if(l==h&&l<2) return l; u k=((u)v<<52)^((u)l<<26)^(u)h; auto it=uq.find(k); if(it!=uq.end())return it->second; P.push_back({v,l,h}); return uq[k]=P.size()-1;}
double cost; double LIM;
unordered_map<u,pair<int,double>> memo; // memo for speed with true cost stored
pair<int,double> ap(int op,int a,int b){ // op0 and,1 or ; returns result and tree cost
  if(a<2){ return {op==0?(a?b:0):(a?1:b),1}; } if(b<2){return {op==0?(b?a:0):(b?1:a),1};}
  u k=((u)op<<60)|((u)a<<30)|b; auto it=memo.find(k); if(it!=memo.end()) return it->second;
  Nd x=P[a],y=P[b]; pair<int,double> l,h; int v;
  if(x.v==y.v){l=ap(op,x.l,y.l);h=ap(op,x.h,y.h);v=x.v;} else if(x.v<y.v){l=ap(op,x.l,b);h=ap(op,x.h,b);v=x.v;} else {l=ap(op,a,y.l);h=ap(op,a,y.h);v=y.v;}
  pair<int,double> r={mku(v,l.first,h.first),l.second+h.second+1}; memo[k]=r; return r;}
unordered_map<u,char> lm; bool le2(int a,int b){ if(a==0||b==1) return true; if(a<2&&b<2) return false; u k=((u)a<<30)|b; auto it=lm.find(k); if(it!=lm.end())return it->second; Nd x=P[a],y=P[b]; bool r; if(x.v==y.v) r=le2(x.l,y.l)&&le2(x.h,y.h); else if(x.v<y.v) r=le2(x.l,b)&&le2(x.h,b); else r=le2(a,y.l)&&le2(a,y.h); return lm[k]=r;}
bool le(int a,int b,double&c){ // a<=b
  auto r=ap(0,a,b); c+=r.second; return le2(a,b);}
int itree(const vector<int>&ws,const vector<u>&up,const vector<u>&dn,u t,u f,int var,map<int,int>&col,double&cap,int sel){
  return 0;}

int pivot(const vector<int>&ws,const vector<u>&up,const vector<u>&dn,u und){int best=-1,bs=-1; for(int w:ws) if(und>>w&1){int a=__builtin_popcountll(up[w]&und),b=__builtin_popcountll(dn[w]&und); int sc=min(a,b)*100+max(a,b); if(sc>bs){bs=sc;best=w;}} return best;}
vector<int> mkprio(const vector<int>&ws,const vector<u>&up,const vector<u>&dn){
  u all=0; for(int w:ws) all|=1ull<<w; vector<int> pr; u in=0; deque<u> q; q.push_back(all); set<u> seen; int steps=0;
  while(!q.empty()&&in!=all&&steps++<20000){ u und=q.front();q.pop_front(); if(!und||!seen.insert(und).second) continue; int p=pivot(ws,up,dn,und); if(!(in>>p&1)){in|=1ull<<p;pr.push_back(p);} 
    // follow actual first undecided in prio
    int w=-1; for(int x:pr) if(und>>x&1){w=x;break;}
    q.push_back(und&~dn[w]); q.push_back(und&~up[w]); }
  for(int w:ws) if(!(in>>w&1)) pr.push_back(w);
  return pr;}
bool build(const vector<int>&ws,const vector<int>&pr,size_t pi,const vector<u>&up,const vector<u>&dn,u t,u f,int var,vector<int>&cols,double&cnt,double cap){
  while(pi<pr.size()&&((t|f)>>pr[pi]&1)) pi++;
  if(++cnt>cap) return false; cols.assign(64,0);
  if(pi==pr.size()){ for(int w:ws) cols[w]=t>>w&1; return true; }
  int best=pr[pi]; u und=~(t|f);
  vector<int> c0,c1; if(!build(ws,pr,pi+1,up,dn,t,f|(dn[best]&und),var+1,c0,cnt,cap))return false; if(!build(ws,pr,pi+1,up,dn,t|(up[best]&und),f,var+1,c1,cnt,cap))return false;
  for(int w:ws) cols[w]=mku(var,c0[w],c1[w]); return true;}
double MC(int a, unordered_map<int,double>&m){ if(a<2) return 1; auto it=m.find(a); if(it!=m.end())return it->second; return m[a]=1+MC(P[a].l,m)+MC(P[a].h,m);}
struct R{bool ok;double work;vector<string> plan;};
R run(int n,const Net&net,double bestw,double noise,int mode,int ord,size_t cap,int period){ vector<int> since(n,0);
  P.assign(2,{1000000,0,0}); P[1].l=1; uq.clear(); memo.clear(); lm.clear();
  vector<int> comp(n),col(n); vector<vector<u>> sets(n); vector<vector<int>> wires(n),q(n); vector<int> ptr(n,0); vector<char> dirty(n,0); vector<double> est(n,2);
  R r; r.ok=false;r.work=0; int nextv= ord?500000:n;
  for(int i=0;i<n;i++){comp[i]=i;sets[i]={0,1ull<<i};wires[i]={i}; col[i]=mku(ord?600000+i:i,0,1);}
  for(int k=0;k<(int)net.size();k++){q[net[k].first].push_back(k);q[net[k].second].push_back(k);}
  size_t done=0; vector<char> ex(n,1);
  auto reduce=[&](int c,double fac){ if(!dirty[c])return; dirty[c]=0; since[c]=0; vector<u> up(64,0),dn(64,0); double cc=0; vector<double> lc(64*64,0);
    auto&ws=wires[c]; for(int a:ws)for(int b:ws){ double c1=0; bool ok=(a==b||le(col[a],col[b],c1)); lc[a*64+b]=c1; if(ok){up[a]|=1ull<<b;dn[b]|=1ull<<a;} }
    size_t distinct=0; if(ex[c]){vector<u>s=sets[c]; sort(s.begin(),s.end()); s.erase(unique(s.begin(),s.end()),s.end()); distinct=s.size(); sets[c]=s;}
    double cnt=0; vector<int> cols; int h=0; int base= ord? nextv-64: nextv; 
    vector<int> prio=mkprio(ws,up,dn); if(build(ws,prio,0,up,dn,0,0,base,cols,cnt,min(2.0*fac*est[c]+2,40000.0))){
      double leaves=(cnt+1)/2; 
      if(mode==0 && ex[c] && leaves>distinct) return;
      if(mode==2 && ex[c] && leaves>1.3*distinct) return;
      if(leaves>fac*est[c]) return; for(int a:ws)for(int b:ws) if(a!=b&&(up[a]>>b&1)){ u mid=up[a]&dn[b]&~(1ull<<a)&~(1ull<<b); if(!mid) cc+=lc[a*64+b];}
      nextv=ord?nextv-64:nextv+64; for(int w:ws) col[w]=cols[w]; est[c]=leaves; 
      // rows
      r.work+=cnt*ws.size()/2+cc; 
      if(leaves<=cap){ // enumerate
        vector<u> out(1,0); vector<int>o=ws; sort(o.begin(),o.end(),[&](int a,int b){return __builtin_popcountll(dn[a])<__builtin_popcountll(dn[b]);}); 
        for(int b:o){vector<u> nw;u m=dn[b]&~(1ull<<b);for(u s:out){if(s&m)nw.push_back(s|1ull<<b);else{nw.push_back(s);nw.push_back(s|1ull<<b);}}out.swap(nw);} sets[c]=out;ex[c]=1;}
      string st="R "+to_string((int)leaves)+" W"; for(int w:ws) st+=" "+to_string(w); st+=" E"; vector<int> o2=ws; sort(o2.begin(),o2.end(),[&](int a,int b){return __builtin_popcountll(dn[a])<__builtin_popcountll(dn[b]);});
      for(int a:o2)for(int b:ws) if(a!=b&&(up[a]>>b&1)&&!(up[a]&dn[b]&~(1ull<<a)&~(1ull<<b))) st+=" "+to_string(a)+" "+to_string(b);
      st+=" P"; for(int w:prio) st+=" "+to_string(w); r.plan.push_back(st);
    } };
  while(done<net.size()){
    vector<int> av; int best=-1;
    for(int w=0;w<n&&best<0;w++) if(ptr[w]<(int)q[w].size()){int k=q[w][ptr[w]];int a=net[k].first,b=net[k].second; if(a==w&&q[b][ptr[b]]==k){ if(comp[a]==comp[b]) best=k; else av.push_back(k);} }
    if(best<0){ double bs=1e300; for(int k:av){reduce(comp[net[k].first],1);reduce(comp[net[k].second],1);}
      for(int k:av){ double sc=log(est[comp[net[k].first]]*est[comp[net[k].second]])+noise*((rng()>>11)*(1.0/9007199254740992.0)); if(sc<bs){bs=sc;best=k;} } }
    int a=net[best].first,b=net[best].second;
    if(comp[a]!=comp[b]){int ca=comp[a],cb=comp[b]; est[ca]*=est[cb];
      if(ex[ca]&&ex[cb]&&(double)sets[ca].size()*sets[cb].size()<=cap){
      vector<u> t; t.reserve(sets[ca].size()*sets[cb].size()); for(u x:sets[ca])for(u y:sets[cb])t.push_back(x|y); sets[ca].swap(t);} else {ex[ca]=0;sets[ca].clear();}
      for(int w:wires[cb]){comp[w]=ca;wires[ca].push_back(w);} sets[cb].clear();}
    int c=comp[a]; if(ex[c]){u A=1ull<<a,B=1ull<<b; for(u&x:sets[c]) if((x&A)&&!(x&B)) x^=A^B;}
    auto l=ap(0,col[a],col[b]),h=ap(1,col[a],col[b]); col[a]=l.first;col[b]=h.first; r.work+=l.second+h.second;
    r.plan.push_back("C "+to_string(a)+" "+to_string(b));
    if(r.work>bestw||P.size()>(1u<<25)) return r; dirty[c]=1; ptr[a]++;ptr[b]++;done++; since[c]++; if(period&&since[c]>=period&&est[c]>60&&net.size()-done>n/2) reduce(c,0.5);
  }
  for(int i=0;i+1<n;i++) if(!le(col[i],col[i+1],r.work)) return r;
  r.ok=true; return r;}
int main(int ac,char**av){ double secs=atof(av[1]); int lo=atoi(av[2]),hi=atoi(av[3]); size_t cap=atoll(av[4]); string dir=av[5];
  int n,m; ifstream f("/tmp/net/nets.txt"); while(f>>n>>m){Net net(m);for(auto&p:net)f>>p.first>>p.second; if(n<lo||n>hi)continue;
   R best; best.ok=false;best.work=1e9; auto t0=chrono::steady_clock::now(); int tries=0; double bn=0;int bm=0,bo=0,bp=0;
   while(tries<24||chrono::duration<double>(chrono::steady_clock::now()-t0).count()<secs){ double noise= tries<24?0: (1+tries%5)*0.5; int mode=tries%3; int ord=(tries/3)%2; int period=(tries/2)%4==0?0:n/(1<<((tries/2)%4)); R r=run(n,net,best.work,noise,mode,ord,cap,period); if(r.ok&&r.work<best.work){best=r;bn=noise;bm=mode;bo=ord;bp=period;} tries++;}
   printf("%d ok=%d work=%.0f tries=%d noise=%.1f mode=%d ord=%d period=%d\n",n,best.ok,best.ok?best.work:0,tries,bn,bm,bo,bp);fflush(stdout);
   if(best.ok&&dir!="-"){ofstream o(dir+"/plan"+to_string(n)); o<<bo<<"\n";for(auto&s:best.plan)o<<s<<"\n";}
  }}
