<minimc>
<general>
  <particles>neutron</particles>
  <histories>4</histories>
  <threads>1</threads>
  <chunksize>1</chunksize>
</general>
<nuclides>
  <multigroup groups="1">
    <nuclide name="absorber">
      <neutron>
        <capture>1</capture>
      </neutron>
    </nuclide>
  </multigroup>
</nuclides>
<materials>
  <material name="thin" aden="0.000001">
    <nuclide name="absorber" afrac="1"/>
  </material>
</materials>
<surfaces>
  <sphere name="sphere">
    <center x="0" y="0" z="0"/>
    <radius r="40"/>
  </sphere>
</surfaces>
<cells>
  <cell name="ball" material="thin">
    <surface name="sphere" sense="-1"/>
  </cell>
  <void>
    <surface name="sphere" sense="+1"/>
  </void>
</cells>
<problemtype>
  <fixedsource>
    <position>
      <constant x="0" y="0" z="0"/>
    </position>
    <direction>
      <constant x="0" y="1" z="1"/>
    </direction>
    <energy>
      <constant energy="1"/>
    </energy>
    <particletype>
      <constant type="neutron"/>
    </particletype>
  </fixedsource>
</problemtype>
<estimators>
  <current name="leakage" surface="sphere"/>
</estimators>
</minimc>
